(** The tracks a simulated tracker hands over fit into the window of clones. *)
From Coq Require Import Reals List Arith ZArith Bool Lia.
From Verif Require Import Base.Res Base.RDec Base.Geom Base.AMap Model.Types Model.MsckfUpdater Model.Trackers
  Spec.History Spec.Sub Spec.Matches Spec.Tracks Proofs.Matches Proofs.Tracks Proofs.SimTracks.
Import ListNotations.
Open Scope nat_scope.

Lemma last_n_suffix : forall A n (a s : list A) x, length s <= n -> In x s -> In x (last_n n (a ++ s)).
Proof.
  intros A n a s x L H. unfold last_n. rewrite app_length, skipn_app. apply in_or_app. right.
  replace (length a + length s - n - length a) with 0 by lia. exact H.
Qed.
Lemma last_n_more : forall A n m (l : list A) x, n <= m -> In x (last_n n l) -> In x (last_n m l).
Proof.
  intros A n m l x L H. unfold last_n in *. rewrite <- (firstn_skipn (length l - n) l) at 2. rewrite skipn_app. apply in_or_app. right.
  assert (length (firstn (length l - n) l) = length l - n) as -> by (rewrite firstn_length; lia).
  replace (length l - m - (length l - n)) with 0 by lia. exact H.
Qed.

Definition stored (mx : nat) (h : list nat) (m : feature_map) : Prop :=
  forall k t, In (k, t) m -> length t < mx /\ exists a, h = a ++ frames t.
Definition seen (Q : V3 -> FeaturePoint -> Prop) (f : features) (m : feature_map) : Prop :=
  forall k t p, In (k, t) m -> In p t -> exists x, nth_error (f_points f) k = Some x /\ Q x p.

Lemma fit_step : forall Q s f time frame v h new s' f', known f -> wfm (st_map s) -> held f (st_map s) ->
  stored (st_max s) h (st_map s) -> seen Q f (st_map s) -> Forall (fun y => y < frame) h ->
  (forall k x, Q x (mkFP frame time (key_point (st_no_errors s) v k x))) ->
  GenerateMessage s f time frame v = OK (new, s', f') ->
  known f' /\ wfm (st_map s') /\ held f' (st_map s') /\ stored (st_max s) (h ++ [frame]) (st_map s') /\ seen Q f' (st_map s') /\
  st_max s' = st_max s /\ st_no_errors s' = st_no_errors s /\
  forall T, In T new -> (forall p, In p (ft_track T) -> In (fp_frame p) (last_n (Nat.max 1 (st_max s)) (h ++ [frame]))) /\
    exists x, ft_true T = Some x /\ forall p, In p (ft_track T) -> Q x p.
Proof.
  intros Q s f time frame v h new s' f' K W Hh St Sn Hf HQ E.
  destruct (message_step s f time frame v K W Hh)
    as [kps [f2 [m1 [out [kept [E1 [K' [[more Em] [Ek [Eg [W1 [Wk [H1 [Hk [G1 [G2 [G3 G4]]]]]]]]]]]]]]]]].
  rewrite Eg in E. injection E as <- <- <-. cbn [st_map st_max st_no_errors].
  assert (C : forall k t, In (k, t) m1 -> t <> [] /\
    ((In (k, t) (st_map s)) \/ exists old x, (old = [] \/ In (k, old) (st_map s)) /\ nth_error (f_points f2) k = Some x /\
       t = old ++ [mkFP frame time (key_point (st_no_errors s) v k x)])).
  { intros k t Hi. pose proof W1 as [_ Hw]. destruct (Hw k t Hi) as [Hn _]. split; [exact Hn|].
    pose proof (in_mget m1 k t W1 Hi) as E. rewrite G1, class_filter_map, Ek, fip_filter in E.
    assert (O : mget [] k (st_map s) = [] \/ In (k, mget [] k (st_map s)) (st_map s)).
    { destruct (mget [] k (st_map s)) as [|p l] eqn:X; [auto|]. right. rewrite <- X. apply mget_in; auto. congruence. }
    destruct (nth_error (f_points f2) k) as [x|] eqn:X; [destruct (visible v x)|].
    - right. exists (mget [] k (st_map s)), x. cbn [map] in E. auto.
    - cbn [map] in E. rewrite app_nil_r in E. left. rewrite E in O. destruct O as [O|O]; [congruence|exact O].
    - cbn [map] in E. rewrite app_nil_r in E. left. rewrite E in O. destruct O as [O|O]; [congruence|exact O]. }
  assert (Gr : forall k x, nth_error (f_points f) k = Some x -> nth_error (f_points f2) k = Some x).
  { intros k x X. rewrite Em. rewrite nth_error_app1; [exact X|]. apply nth_error_Some. congruence. }
  assert (P : forall k t, In (k, t) m1 -> (forall p, In p t -> In (fp_frame p) (last_n (Nat.max 1 (st_max s)) (h ++ [frame]))) /\
      exists x, nth_error (f_points f2) k = Some x /\ forall p, In p t -> Q x p).
  { intros k t Hi. destruct (C k t Hi) as [Hn [O|[old [x [O [X ->]]]]]].
    - destruct (St k t O) as [L [a Ea]]. split.
      + intros p Hp. rewrite Ea, <- app_assoc. apply last_n_suffix.
        * rewrite app_length. unfold frames. rewrite map_length. cbn [length]. lia.
        * apply in_or_app. left. apply in_map. exact Hp.
      + destruct t as [|p0 t]; [congruence|]. destruct (Sn k _ p0 O (or_introl eq_refl)) as [x [X Y]]. exists x. split; [auto|].
        intros p Hp. destruct (Sn k _ p O Hp) as [x' [X' Y']]. congruence.
    - split.
      + intros p Hp. assert (Z : exists a, h = a ++ frames old /\ length old <= st_max s - 1).
        { destruct O as [->|O]; [exists h; split; [now rewrite app_nil_r|cbn; lia]|]. destruct (St k _ O) as [L [a Ea]]. exists a. split; [exact Ea|lia]. }
        destruct Z as [a [Ea L]]. rewrite Ea, <- app_assoc. apply last_n_suffix.
        * rewrite app_length. unfold frames. rewrite map_length. cbn [length]. lia.
        * apply in_or_app. apply in_app_or in Hp. destruct Hp as [Hp|[<-|[]]]; [left; apply in_map; exact Hp|right; left; reflexivity].
      + exists x. split; [exact X|]. intros p Hp. apply in_app_or in Hp. destruct Hp as [Hp|[<-|[]]]; [|apply HQ].
        destruct O as [->|O]; [destruct Hp|]. destruct (Sn k _ p O Hp) as [x' [X' Y']]. apply Gr in X'. congruence. }
  assert (D : forall k t, In (k, t) kept -> In (k, t) m1 /\ done frame (st_max s) t = false).
  { intros k t Hi. pose proof (in_mget kept k t Wk Hi) as E. rewrite G2 in E. pose proof Wk as [_ Hw].
    destruct (Hw k t Hi) as [Hn _]. destruct (done _ _ _) eqn:D; [congruence|]. rewrite E in D. split; auto.
    rewrite <- E. apply mget_in; auto. congruence. }
  split; [exact K'|]. split; [exact Wk|]. split; [exact Hk|]. split; [|split; [|split; [reflexivity|split; [reflexivity|]]]].
  - intros k t Hi. destruct (D k t Hi) as [Hm Dn]. unfold done in Dn. apply orb_false_iff in Dn. destruct Dn as [D1 D2].
    apply Nat.ltb_ge in D1. apply Nat.leb_gt in D2. split; [exact D2|]. destruct (C k t Hm) as [Hn [O|[old [x [O [X ->]]]]]].
    + exfalso. destruct (St k t O) as [_ [a Ea]]. rewrite Ea in Hf. apply Forall_app in Hf. destruct Hf as [_ Hf]. rewrite Forall_forall in Hf.
      assert (In (back_frame t) (frames t)).
      { unfold back_frame, frames. apply in_map. destruct (exists_last Hn) as [t' [y ->]]. rewrite last_last. apply in_or_app. right. left. reflexivity. }
      specialize (Hf _ H). cbv beta in Hf. lia.
    + destruct O as [->|O]; [exists h; reflexivity|]. destruct (St k _ O) as [_ [a Ea]]. exists a. unfold frames. rewrite map_app. cbn [map].
      rewrite app_assoc. unfold frames in Ea. rewrite <- Ea. reflexivity.
  - intros k t p Hi Hp. destruct (D k t Hi) as [Hm _]. destruct (P k t Hm) as [_ [x [X Y]]]. exists x. split; auto.
  - intros T HT. apply in_map_iff in HT. destruct HT as [t [<- Ht]]. cbn [ft_track ft_true]. destruct (G4 t Ht) as [k [Hm _]].
    destruct (P k t Hm) as [P1 [x [X Y]]]. split; [exact P1|]. exists x. split; [|exact Y].
    pose proof W1 as [_ Hw]. destruct (Hw k t Hm) as [Hn Hc]. rewrite (track_id_class k t Hc Hn). exact X.
Qed.
