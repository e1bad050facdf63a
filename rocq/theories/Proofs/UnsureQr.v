(** The left factor of the QR decomposition of the Jacobian of one feature
    seen from depths 1/3 and 1/4. *)
From Coq Require Import Reals List Arith Bool Lia Lra.
From Verif Require Import Base.Res Base.Mat Base.RDec Base.RSum Base.LinAlg Model.QR.
Open Scope R_scope.

Lemma house_pos : forall m k A b, tail2 m k A <> 0 -> 0 <= A k k -> 0 < b -> b * b = A k k * A k k + tail2 m k A ->
  hbeta m k A = - b /\ htau m k A = (b + A k k) / b /\ forall i, (k < i)%nat -> hvec m k A i = A i k / (A k k + b).
Proof.
  intros m k A b T C B E.
  assert (HB : hbeta m k A = - b).
  { unfold hbeta. rewrite (proj2 (Reqb_false _ 0) T). cbv zeta. rewrite (proj2 (Rleb_spec 0 (A k k)) C). rewrite <- E, sqrt_square by lra. reflexivity. }
  split; [exact HB|]. split.
  - unfold htau. rewrite (proj2 (Reqb_false _ 0) T). cbv zeta. rewrite HB. field. lra.
  - intros i Hi. unfold hvec. rewrite (proj2 (Nat.ltb_ge i k)) by lia. rewrite (proj2 (Nat.eqb_neq i k)) by lia. rewrite (proj2 (Reqb_false _ 0) T), HB.
    f_equal. ring.
Qed.
Lemma hvec_low : forall m k A i, (i < k)%nat -> hvec m k A i = 0.
Proof. intros. unfold hvec. rewrite (proj2 (Nat.ltb_lt i k)) by lia. reflexivity. Qed.
Lemma hvec_one : forall m k A, hvec m k A k = 1.
Proof. intros. unfold hvec. rewrite Nat.ltb_irrefl, Nat.eqb_refl. reflexivity. Qed.
Lemma refl4 : forall tau v B i j, refl 4 tau v B i j = B i j - tau * v i * (v 0%nat * B 0%nat j + v 1%nat * B 1%nat j + v 2%nat * B 2%nat j + v 3%nat * B 3%nat j).
Proof. intros. unfold refl. cbn [rsum]. ring. Qed.
Definition seen_jac (A : fmat) : Prop :=
  (A 0%nat 0%nat = 3 /\ A 0%nat 1%nat = 0 /\ A 0%nat 2%nat = 0) /\ (A 1%nat 0%nat = 0 /\ A 1%nat 1%nat = 3 /\ A 1%nat 2%nat = -9) /\
  (A 2%nat 0%nat = 4 /\ A 2%nat 1%nat = 0 /\ A 2%nat 2%nat = 0) /\ (A 3%nat 0%nat = 0 /\ A 3%nat 1%nat = 4 /\ A 3%nat 2%nat = -16).
Lemma seen_q : forall A, seen_jac A -> tr (hqt 4 3 A) 3%nat 0%nat = 0 /\ tr (hqt 4 3 A) 3%nat 1%nat = - (4 / 5) /\
  tr (hqt 4 3 A) 3%nat 2%nat = 3 / 5 /\ tr (hqt 4 3 A) 3%nat 3%nat = 0.
Proof.
  intros A ((A00 & A01 & A02) & (A10 & A11 & A12) & (A20 & A21 & A22) & (A30 & A31 & A32)).
  assert (T0 : tail2 4 0 A = 16) by (unfold tail2; cbn; rewrite A10, A20, A30; ring).
  destruct (house_pos 4 0 A 5) as (_ & U0 & V0); try (rewrite ?T0, ?A00; lra).
  assert (u0 : htau 4 0 A = 8 / 5) by (rewrite U0, A00; field).
  assert (v01 : hvec 4 0 A 1 = 0) by (rewrite V0 by lia; rewrite A10; field; lra).
  assert (v02 : hvec 4 0 A 2 = 1 / 2) by (rewrite V0 by lia; rewrite A20, A00; field; lra).
  assert (v03 : hvec 4 0 A 3 = 0) by (rewrite V0 by lia; rewrite A30; field; lra).
  pose proof (hvec_one 4 0 A) as v00. clear U0 V0.
  set (B := hqr 4 1 A).
  assert (EB : forall i j, (0 < j)%nat -> B i j = refl 4 (8 / 5) (hvec 4 0 A) A i j).
  { intros i j Hj. unfold B. cbn [hqr]. unfold hstep. destruct j; [lia|]. cbn [Nat.ltb Nat.leb Nat.eqb]. rewrite u0. reflexivity. }
  assert (B11 : B 1%nat 1%nat = 3) by (rewrite EB by lia; rewrite refl4, v01, A11; ring).
  assert (B21 : B 2%nat 1%nat = 0) by (rewrite EB by lia; rewrite refl4, v00, v01, v02, v03, A01, A11, A21, A31; field).
  assert (B31 : B 3%nat 1%nat = 4) by (rewrite EB by lia; rewrite refl4, v03, A31; ring).
  assert (B12 : B 1%nat 2%nat = -9) by (rewrite EB by lia; rewrite refl4, v01, A12; ring).
  assert (B22 : B 2%nat 2%nat = 0) by (rewrite EB by lia; rewrite refl4, v00, v01, v02, v03, A02, A12, A22, A32; field).
  assert (B32 : B 3%nat 2%nat = -16) by (rewrite EB by lia; rewrite refl4, v03, A32; ring).
  assert (T1 : tail2 4 1 B = 16) by (unfold tail2; cbn [rsum Nat.ltb Nat.leb]; rewrite B21, B31; ring).
  destruct (house_pos 4 1 B 5) as (_ & U1 & V1); try (rewrite ?T1, ?B11; lra).
  assert (u1 : htau 4 1 B = 8 / 5) by (rewrite U1, B11; field).
  assert (v12 : hvec 4 1 B 2 = 0) by (rewrite V1 by lia; rewrite B21; field; lra).
  assert (v13 : hvec 4 1 B 3 = 1 / 2) by (rewrite V1 by lia; rewrite B31, B11; field; lra).
  pose proof (hvec_one 4 1 B) as v11. pose proof (hvec_low 4 1 B 0 ltac:(lia)) as v10. clear U1 V1.
  set (C := hqr 4 2 A).
  assert (EC : forall i j, (1 < j)%nat -> C i j = refl 4 (8 / 5) (hvec 4 1 B) B i j).
  { intros i j Hj. unfold C. change (hqr 4 2 A) with (hstep 4 1 B). unfold hstep. destruct j as [|[|j]]; [lia|lia|]. cbn [Nat.ltb Nat.leb Nat.eqb]. rewrite u1. reflexivity. }
  assert (C22 : C 2%nat 2%nat = 0) by (rewrite EC by lia; rewrite refl4, v12, B22; ring).
  assert (C32 : C 3%nat 2%nat = - (12 / 5)) by (rewrite EC by lia; rewrite refl4, v10, v11, v12, v13, B12, B22, B32; field).
  assert (T2 : tail2 4 2 C = 144 / 25) by (unfold tail2; cbn [rsum Nat.ltb Nat.leb]; rewrite C32; field).
  destruct (house_pos 4 2 C (12 / 5)) as (_ & U2 & V2); try (rewrite ?T2, ?C22; lra).
  assert (u2 : htau 4 2 C = 1) by (rewrite U2, C22; field).
  assert (v23 : hvec 4 2 C 3 = -1) by (rewrite V2 by lia; rewrite C32, C22; field; lra).
  pose proof (hvec_one 4 2 C) as v22. pose proof (hvec_low 4 2 C 0 ltac:(lia)) as v20. pose proof (hvec_low 4 2 C 1 ltac:(lia)) as v21. clear U2 V2.
  assert (Q : hqt 4 3 A = refl 4 1 (hvec 4 2 C) (refl 4 (8 / 5) (hvec 4 1 B) (refl 4 (8 / 5) (hvec 4 0 A) idm))).
  { cbn [hqt]. change (hqr 4 0 A) with A. fold B. change (hstep 4 1 (hqr 4 1 A)) with C. fold C. rewrite u0, u1, u2. reflexivity. }
  unfold tr. rewrite Q. rewrite !refl4. rewrite v00, v01, v02, v03, v10, v11, v12, v13, v20, v21, v22, v23. unfold idm. cbn [Nat.eqb].
  repeat split; field.
Qed.
