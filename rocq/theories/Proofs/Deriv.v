(** Derivatives along curves. *)
From Coq Require Import Reals List Arith Bool Lia Lra.
From Verif Require Import Base.Res Base.Mat Base.RDec Base.RSum Base.LinAlg Base.Geom
  Model.TypeHelper Model.MathHelper Spec.Rotation Spec.Deriv Proofs.Effects Proofs.Rotations.
Open Scope R_scope.

Notation dl := derivable_pt_lim.

Lemma dl_loc : forall f g x d, (exists h, 0 < h /\ forall t, Rabs (t - x) < h -> f t = g t) -> dl f x d -> dl g x d.
Proof.
  intros f g x d (h & Hh & E) D eps He. destruct (D eps He) as [del Hd].
  assert (Hm : 0 < Rmin h del) by (apply Rmin_glb_lt; [exact Hh|apply cond_pos]).
  exists (mkposreal _ Hm). intros k Hk Hlt. cbn [pos] in Hlt.
  rewrite <- (E (x + k)), <- (E x).
  - apply Hd; [exact Hk|]. eapply Rlt_le_trans; [exact Hlt|apply Rmin_r].
  - replace (x - x) with 0 by ring. rewrite Rabs_R0. exact Hh.
  - replace (x + k - x) with k by ring. eapply Rlt_le_trans; [exact Hlt|apply Rmin_l].
Qed.
Lemma dl_ext : forall f g x d, (forall t, f t = g t) -> dl f x d -> dl g x d.
Proof. intros f g x d E. apply dl_loc. exists 1. split; [lra|auto]. Qed.
Lemma dl_eq : forall f x d d', d = d' -> dl f x d -> dl f x d'.
Proof. intros. subst. assumption. Qed.
Lemma dl_const : forall c x, dl (fun _ => c) x 0.
Proof. intros. apply derivable_pt_lim_const. Qed.
Lemma dl_id : forall x, dl (fun t => t) x 1.
Proof. intros. apply derivable_pt_lim_id. Qed.
Lemma dl_plus : forall f g x a b, dl f x a -> dl g x b -> dl (fun t => f t + g t) x (a + b).
Proof. intros. apply (derivable_pt_lim_plus f g); assumption. Qed.
Lemma dl_minus : forall f g x a b, dl f x a -> dl g x b -> dl (fun t => f t - g t) x (a - b).
Proof. intros. apply (derivable_pt_lim_minus f g); assumption. Qed.
Lemma dl_opp : forall f x a, dl f x a -> dl (fun t => - f t) x (- a).
Proof. intros. apply (derivable_pt_lim_opp f); assumption. Qed.
Lemma dl_mult : forall f g x a b, dl f x a -> dl g x b -> dl (fun t => f t * g t) x (a * g x + f x * b).
Proof. intros. apply (derivable_pt_lim_mult f g); assumption. Qed.
Lemma dl_div : forall f g x a b, dl f x a -> dl g x b -> g x <> 0 ->
  dl (fun t => f t / g t) x ((a * g x - b * f x) / Rsqr (g x)).
Proof. intros. apply (derivable_pt_lim_div f g); assumption. Qed.
Lemma dl_sin : forall f x a, dl f x a -> dl (fun t => sin (f t)) x (cos (f x) * a).
Proof. intros. apply (derivable_pt_lim_comp f sin); [assumption|apply derivable_pt_lim_sin]. Qed.
Lemma dl_cos : forall f x a, dl f x a -> dl (fun t => cos (f t)) x (- sin (f x) * a).
Proof. intros. apply (derivable_pt_lim_comp f cos); [assumption|apply derivable_pt_lim_cos]. Qed.
Lemma dl_sqrt : forall f x a, dl f x a -> 0 < f x -> dl (fun t => sqrt (f t)) x (/ (2 * sqrt (f x)) * a).
Proof. intros. apply (derivable_pt_lim_comp f sqrt); [assumption|apply derivable_pt_lim_sqrt; assumption]. Qed.

Ltac dstep := first
  [ eassumption | apply dl_const | apply dl_id | apply dl_plus | apply dl_minus | apply dl_opp | apply dl_mult
  | apply dl_sin | apply dl_cos ].
Ltac dsolve := eapply dl_eq; [|repeat (first [eassumption | eapply dl_const | eapply dl_id
   | eapply dl_plus | eapply dl_minus | eapply dl_opp | eapply dl_mult | eapply dl_sin | eapply dl_cos])].

(** A function with a rate of change is continuous. *)
Lemma moves_cont : forall f d eps, moves f d -> 0 < eps -> near (fun t => Rabs (f t - f 0) < eps).
Proof.
  intros f d eps H He. assert (C : continuity_pt f 0) by (apply derivable_continuous_pt; exists d; exact H).
  destruct (C eps He) as [h [Hh Hc]]. exists h. split; [exact Hh|]. intros t Ht.
  destruct (Req_dec t 0) as [->|Hn]; [unfold Rminus; rewrite Rplus_opp_r, Rabs_R0; exact He|].
  apply (Hc t). split; [split; [exact I|congruence]|]. cbn. unfold R_dist. rewrite Rminus_0_r. exact Ht.
Qed.
Lemma moves_gt : forall f d m, moves f d -> m < f 0 -> near (fun t => m < f t).
Proof.
  intros f d m H Hm. destruct (moves_cont f d (f 0 - m) H ltac:(lra)) as (h & Hh & E).
  exists h. split; [exact Hh|]. intros t Ht. specialize (E t Ht). apply Rabs_def2 in E. lra.
Qed.
Lemma moves_nonzero : forall f d, moves f d -> f 0 <> 0 -> near (fun t => f t <> 0).
Proof.
  intros f d H Hn. assert (P : 0 < Rabs (f 0)) by (apply Rabs_pos_lt; exact Hn).
  destruct (moves_cont f d (Rabs (f 0)) H P) as (h & Hh & E).
  exists h. split; [exact Hh|]. intros t Ht E0. specialize (E t Ht). rewrite E0 in E.
  rewrite Rminus_0_l, Rabs_Ropp in E. lra.
Qed.
Lemma near_and : forall P Q, near P -> near Q -> near (fun t => P t /\ Q t).
Proof.
  intros P Q (h & Hh & E) (k & Hk & F). exists (Rmin h k). split; [apply Rmin_glb_lt; assumption|].
  intros t Ht. split; [apply E|apply F]; (eapply Rlt_le_trans; [exact Ht|]); [apply Rmin_l|apply Rmin_r].
Qed.
Lemma near_impl : forall (P Q : R -> Prop), (forall t, P t -> Q t) -> near P -> near Q.
Proof. intros P Q H (h & Hh & E). exists h. split; auto. Qed.
Lemma moves_loc : forall f g d, near (fun t => f t = g t) -> moves f d -> moves g d.
Proof.
  intros f g d (h & Hh & E) D. apply (dl_loc f); [|exact D]. exists h. split; [exact Hh|].
  intros t Ht. apply E. rewrite Rminus_0_r in Ht. exact Ht.
Qed.
Lemma vmoves_loc : forall f g d, near (fun t => f t = g t) -> vmoves f d -> vmoves g d.
Proof.
  intros f g d H (A & B & C). repeat split; (eapply moves_loc; [|eassumption]);
  (eapply near_impl; [|exact H]); intros t ->; reflexivity.
Qed.
Lemma vmoves_eq : forall f d d', d = d' -> vmoves f d -> vmoves f d'.
Proof. intros. subst. assumption. Qed.
Lemma vmoves_const : forall v, vmoves (fun _ => v) v0.
Proof. intros. repeat split; apply dl_const. Qed.
Lemma vmoves_add : forall f g a b, vmoves f a -> vmoves g b -> vmoves (fun t => vadd (f t) (g t)) (vadd a b).
Proof. intros f g a b (A & B & C) (D & E & F). repeat split; cbn; apply dl_plus; assumption. Qed.
Lemma vmoves_sub : forall f g a b, vmoves f a -> vmoves g b -> vmoves (fun t => vsub (f t) (g t)) (vsub a b).
Proof. intros f g a b (A & B & C) (D & E & F). repeat split; cbn; apply dl_minus; assumption. Qed.
Lemma vmoves_scale : forall f g a b, moves f a -> vmoves g b ->
  vmoves (fun t => vscale (f t) (g t)) (vadd (vscale a (g 0)) (vscale (f 0) b)).
Proof. intros f g a b H (D & E & F). repeat split; cbn; apply (dl_mult f); assumption. Qed.
Lemma moves_dot : forall f g a b, vmoves f a -> vmoves g b ->
  moves (fun t => vdot (f t) (g t)) (vdot a (g 0) + vdot (f 0) b).
Proof.
  intros f g a b (A & B & C) (D & E & F). unfold moves, vdot. unfold moves in *.
  eapply dl_eq; [|eapply dl_plus; [eapply dl_plus|]; eapply dl_mult; eassumption]. cbn. ring.
Qed.
Lemma vmoves_cross : forall f g a b, vmoves f a -> vmoves g b ->
  vmoves (fun t => vcross (f t) (g t)) (vadd (vcross a (g 0)) (vcross (f 0) b)).
Proof.
  intros f g a b (A & B & C) (D & E & F). unfold moves in *.
  repeat split; unfold moves; cbn;
  (eapply dl_eq; [|eapply dl_minus; eapply dl_mult; eassumption]); cbn; ring.
Qed.
Lemma vmoves_mat : forall M f a, vmoves f a -> vmoves (fun t => mat_vec M (f t)) (mat_vec M a).
Proof.
  intros M f a (A & B & C). unfold moves in *. repeat split; unfold moves; cbn;
  (eapply dl_eq; [|eapply dl_plus; [eapply dl_plus|]; eapply dl_mult; first [apply dl_const|eassumption]]); cbn; ring.
Qed.
