(** C40: Alignment statistics. *)
From Coq Require Import Reals List Arith Lia Lra.
From Verif Require Import Base.Res Base.Geom Model.TypeHelper Model.MathHelper Spec.Points Spec.Svd
  Proofs.Align Proofs.Svd2.
Import ListNotations.
Open Scope R_scope.

Theorem C40_mean : forall l, l <> [] -> average_vectors l = OK (mean l).
Proof. exact average_ok. Qed.
Print Assumptions C40_mean.

Theorem C40_weighted_mean : forall vs ws, length ws = length vs -> total ws <> 0 ->
  average_vectors_w vs ws =
  OK (mkV3 (total (map (fun p => snd p * vx (fst p)) (combine vs ws)) / total ws)
           (total (map (fun p => snd p * vy (fst p)) (combine vs ws)) / total ws)
           (total (map (fun p => snd p * vz (fst p)) (combine vs ws)) / total ws)).
Proof. exact average_weighted. Qed.
Print Assumptions C40_weighted_mean.

Theorem C40_within_bounds : forall (f : V3 -> R) l lo hi, l <> [] -> (forall x, In x l -> lo <= f x <= hi) ->
  lo <= mean_of f l <= hi.
Proof. exact (mean_bounds V3). Qed.
Print Assumptions C40_within_bounds.

Theorem C40_translation : forall t l, l <> [] -> mean (map (fun v => vadd v t) l) = vadd (mean l) t.
Proof. exact mean_translate. Qed.
Print Assumptions C40_translation.

Theorem C40_refuses : forall svd tgt src,
  (length tgt <> length src \/ (length tgt < 4)%nat) -> kabsch_2d svd tgt src = OK None.
Proof. exact kabsch_refuses. Qed.
Print Assumptions C40_refuses.

(** Exactly aligned points: the rigid motion is recovered, with both
    deviations zero. *)
Theorem C40_recovers : forall svd yaw t src, (4 <= length src)%nat -> spread src ->
  (forall M, let '(U, V) := svd M in svd_of M U V) ->
  exists T, kabsch_2d svd (map (rigid yaw t) src) src = OK (Some (T, 0, Some 0)) /\
    (forall v, aff_apply T v = rigid yaw t v) /\ af_tr T = t /\ af_lin T = lift_rot (m2rot yaw).
Proof. exact kabsch_recovers. Qed.
Print Assumptions C40_recovers.

(** The reported heading is the yaw for non-negative yaws and minus the yaw
    for negative ones. *)
Theorem C40_heading : forall yaw T, af_lin T = lift_rot (m2rot yaw) ->
  (0 <= yaw <= PI -> affine_angle T = OK yaw) /\ (- PI <= yaw <= 0 -> affine_angle T = OK (- yaw)).
Proof. exact heading. Qed.
Print Assumptions C40_heading.

(** The contract of the decomposition can be met, and four corners of a
    square are spread out. *)
Example C40_svd : forall M, let '(U, V) := svd2 M in svd_of M U V.
Proof. exact svd2_ok. Qed.
Example C40_square : let src := [mkV3 0 0 0; mkV3 1 0 0; mkV3 1 1 0; mkV3 0 1 0] in (4 <= length src)%nat /\ spread src.
Proof.
  cbn. split; [lia|]. exists (mkV3 0 0 0), (mkV3 1 0 0). split; [left; reflexivity|]. split; [right; left; reflexivity|].
  left. cbn. lra.
Qed.
Example C40_average : average_vectors [mkV3 1 2 3; mkV3 3 4 5] = OK (mkV3 2 3 4).
Proof. rewrite C40_mean by discriminate. f_equal. unfold mean, mean_of, total. cbn. f_equal; lra. Qed.
