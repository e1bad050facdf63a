(** A small sampled truth: one second at two samples per second between two
    control points. *)
From Coq Require Import Reals List Arith Bool ZArith Lia Lra.
From Verif Require Import Base.Res Base.RDec Base.Geom Model.TruthEngine Spec.Truth Spec.Sampled Proofs.Smoother.
Import ListNotations.
Open Scope R_scope.

Definition exact_draw (i : nat) (mean err : V3) : V3 := mean.
Definition demo_built := mk_smoother [0; 2] [5; 5; 5; 1; 2; 3] [0; 0; 0; 0; 0; 0] [0; 0; 0] [0; 0; 0] 0 (3 / 2) 2
  exact_draw exact_draw.
Lemma demo_increasing : increasing [0; 2].
Proof.
  intros i a b Ha Hb. pose proof (nth_lt _ _ _ _ Hb) as L. cbn in L. assert (i = 0%nat) by lia. subst i. cbn in Ha, Hb.
  injection Ha as <-. injection Hb as <-. lra.
Qed.
Lemma demo_ok : exists s, demo_built = OK s.
Proof.
  apply engine_ok; try reflexivity; try (cbn; lia); try lra; [discriminate|exact demo_increasing].
Qed.
Lemma demo_engine : exists s, built s /\ accepted s 1 /\ sm_stationary_time s = 0 /\ sm_rate s = 2 /\
  length (sm_pos s) = 3%nat /\ nth_error (sm_pos s) 0 = Some v0 /\ nth_error (sm_pos s) 1 = Some (mkV3 4 (17 / 4) (9 / 2)).
Proof.
  destruct demo_ok as (s & H). exists s. unfold demo_built in H.
  destruct (engine_inv _ _ _ _ _ _ _ _ _ _ _ H ltac:(lra)) as (n & _ & _ & _ & _ & R1 & R2 & R3 & H2 & Hn & L & _).
  assert (N : n = 3%nat).
  { assert (n < 4)%nat by (apply INR_lt; cbn; lra).
    assert (2 < n)%nat by (apply INR_lt; cbn; lra). lia. }
  subst n. split.
  { split; [rewrite R1; lra|]. rewrite R1, R2, R3. repeat eexists. exact H. }
  split; [unfold accepted; rewrite R2, R3; lra|]. split; [exact R3|]. split; [exact R1|].
  split; [apply L; left; reflexivity|].
  destruct (samples_on_path _ _ _ _ _ _ _ _ _ _ _ H ltac:(lra)) as (pe3 & ae3 & cp & ca & E1 & E2 & ((Lc & C) & _) & P).
  rewrite (L (sm_pos s)) in P by (left; reflexivity).
  cbn in Lc.
  assert (C0 : nth_error cp 0 = Some (mkV3 5 5 5)).
  { destruct (C 0%nat ltac:(cbn; lia)) as (p & (A & B & D) & E). cbn in A, B, D. rewrite E. cbn [Nat.eqb].
    destruct p as [px py pz]. cbn in *. congruence. }
  assert (C1 : nth_error cp 1 = Some (mkV3 1 2 3)).
  { destruct (C 1%nat ltac:(cbn; lia)) as (p & (A & B & D) & E). cbn in A, B, D. rewrite E. cbn [Nat.eqb].
    unfold exact_draw. destruct p as [px py pz]. cbn in *. congruence. }
  split.
  - destruct (P 0%nat 0 2 ltac:(lia) eq_refl eq_refl) as (v & w & Hv & _ & K).
    rewrite Rltb_ff in K by (cbn; lra). cbn [andb] in K. destruct K as [-> _]. exact Hv.
  - destruct (P 1%nat 0 2 ltac:(lia) eq_refl eq_refl) as (v & w & Hv & _ & K).
    rewrite !Rltb_true in K by (cbn; lra). cbn [andb] in K. destruct K as [(j & ta & tb & a & b & A1 & A2 & A3 & A4 & _ & _ & ->) _].
    pose proof (nth_lt _ _ _ _ A2) as Lj. cbn in Lj. assert (j = 0%nat) by lia. subst j. cbn in A1, A2.
    injection A1 as <-. injection A2 as <-.
    rewrite C0 in A3. injection A3 as <-. cbn [Nat.add] in A4. rewrite C1 in A4. injection A4 as <-. rewrite Hv. f_equal.
    unfold vadd, vscale, vsub. cbn. f_equal; field.
Qed.
(** The truth starts at the origin, not at the first control point. *)
Lemma start_refuted : exists times poses angles pe ae stat maxt rate s p, 
  mk_smoother times poses angles pe ae stat maxt rate exact_draw exact_draw = OK s /\ 0 < rate /\
  nth_error times 0 = Some 0 /\ point_at poses 0 p /\ p <> v0 /\ nth_error (sm_pos s) 0 = Some v0.
Proof.
  destruct demo_ok as (s & H). unfold demo_built in H.
  do 8 eexists. exists s, (mkV3 5 5 5). split; [exact H|]. split; [lra|]. split; [reflexivity|].
  split; [repeat split|]. split; [intros E; injection E; lra|].
  destruct (samples_on_path _ _ _ _ _ _ _ _ _ _ _ H ltac:(lra)) as (pe3 & ae3 & cp & ca & _ & _ & _ & P).
  destruct (engine_inv _ _ _ _ _ _ _ _ _ _ _ H ltac:(lra)) as (n & _ & _ & _ & _ & _ & _ & _ & H2 & Hn & L & _).
  rewrite (L (sm_pos s)) in P by (left; reflexivity).
  destruct (P 0%nat 0 2 ltac:(lia) eq_refl eq_refl) as (v & w & Hv & _ & K).
  rewrite Rltb_ff in K by (cbn; lra). cbn [andb] in K. destruct K as [-> _]. exact Hv.
Qed.
