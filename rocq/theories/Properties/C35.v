(** C35: Match filters only remove matches. *)
From Coq Require Import Reals List Arith ZArith Lia Lra.
From Verif Require Import Base.Res Model.MsckfUpdater Model.Trackers Spec.Sub Spec.Matches Proofs.Matches.
Import ListNotations.
Open Scope R_scope.

(** The ratio test clears an entry or leaves it; it clears a pair exactly
    when the best distance exceeds the ratio times the second best. *)
Theorem C35_ratio : forall r ms, 0 < r -> Forall (Forall (fun d => 0 <= dm_dist d)) ms ->
  Forall2 (fun m m' =>
    (m' = m \/ m' = []) /\ (length m = 1%nat -> m' = []) /\
    (forall a b, m = [a; b] -> (m' = [] <-> dm_dist a > r * dm_dist b)) /\
    (length m <> 1%nat -> length m <> 2%nat -> m' = m)) ms (RatioTest r ms).
Proof. exact ratio_spec. Qed.
Print Assumptions C35_ratio.

(** The symmetry test returns exactly the best matches that are best in the
    other direction too. *)
Theorem C35_symmetry : forall f b d, In d (SymmetryTest f b) <->
  best f d /\ exists e, best b e /\ dm_train e = dm_query d /\ dm_query e = dm_train d.
Proof. exact symmetry_in. Qed.
Print Assumptions C35_symmetry.

Theorem C35_one_to_one : forall n k f b, neighbours n k f -> neighbours k n b ->
  NoDup (map dm_query (SymmetryTest f b)) /\ NoDup (map dm_train (SymmetryTest f b)) /\
  Forall (fun d => (dm_query d < n)%nat /\ (dm_train d < k)%nat) (SymmetryTest f b).
Proof. exact symmetry_injective. Qed.
Print Assumptions C35_one_to_one.

(** The fundamental matrix test returns a subsequence, and nothing for fewer
    than ten matches. *)
Theorem C35_ransac : forall mask prev curr ms out, RANSAC mask prev curr ms = OK out ->
  sub out ms /\ ((length ms < 10)%nat -> out = []).
Proof. exact ransac_sub. Qed.
Print Assumptions C35_ransac.

(** The distance test keeps exactly the matches below three times the mean. *)
Theorem C35_distance : forall prev curr ms ds, spans prev curr ms ds -> exists out,
  DistanceTest prev curr ms = OK out /\
  keeps (fun d => d < 3 * (total ds / INR (length ms))) ms ds out.
Proof. exact distance_spec. Qed.
Print Assumptions C35_distance.

(** If no point moved, every match is discarded. *)
Theorem C35_standstill : forall prev curr ms ds, spans prev curr ms ds -> Forall (fun d => d = 0) ds ->
  DistanceTest prev curr ms = OK [].
Proof. exact distance_zero. Qed.
Print Assumptions C35_standstill.

(** What reaches the tracks is one to one, whatever the mask. *)
Theorem C35_final : forall t im curr ms,
  neighbours (length (it_prev t)) (length curr) (im_forward im) ->
  neighbours (length curr) (length (it_prev t)) (im_backward im) ->
  final_matches t im curr = OK ms ->
  NoDup (map dm_query ms) /\ NoDup (map dm_train ms) /\
  Forall (fun d => (dm_query d < length (it_prev t))%nat /\ (dm_train d < length curr)%nat) ms.
Proof. exact final_injective. Qed.
Print Assumptions C35_final.

Example C35_case :
  let f := [[mkDM 0 0 1; mkDM 0 1 2]; [mkDM 1 0 1; mkDM 1 1 5]] in
  let b := [[mkDM 0 1 1; mkDM 0 0 2]; [mkDM 1 0 2; mkDM 1 1 5]] in
  neighbours 2 2 f /\ neighbours 2 2 b /\ SymmetryTest f b = [mkDM 1 0 1].
Proof.
  cbv zeta. split; [|split; [|reflexivity]].
  - intros i m d H1 H2. destruct i as [|[|i]]; simpl in H1; try (destruct i; discriminate); injection H1 as <-; simpl in H2;
      destruct H2 as [<-|[<-|[]]]; simpl; lia.
  - intros i m d H1 H2. destruct i as [|[|i]]; simpl in H1; try (destruct i; discriminate); injection H1 as <-; simpl in H2;
      destruct H2 as [<-|[<-|[]]]; simpl; lia.
Qed.
Example C35_case_distance : spans [mkKP 0 0 (-1)] [mkKP 3 4 (-1)] [mkDM 0 0 1] [distance (mkKP 0 0 (-1)) (mkKP 3 4 (-1))].
Proof. repeat constructor. Qed.
