(** A 2 x 2 singular value decomposition exists, so the alignment theorems
    are not vacuous. *)
From Coq Require Import Reals Lra.
From Verif Require Import Base.RDec Model.MathHelper Spec.Svd Proofs.Align.
Open Scope R_scope.

Definition ang (c s : R) : R := if Rleb 0 s then acos c else - acos c.
Lemma ang_ok : forall c s, c * c + s * s = 1 -> cos (ang c s) = c /\ sin (ang c s) = s.
Proof.
  intros c s H. assert (B : -1 <= c <= 1) by nra.
  assert (S : sin (acos c) = sqrt (1 - c²)) by (apply sin_acos; exact B).
  assert (E : 1 - c² = s * s) by (unfold Rsqr; lra). rewrite E in S.
  unfold ang. destruct (Rleb 0 s) eqn:L.
  - apply Rleb_spec in L. rewrite cos_acos, S by exact B. split; [reflexivity|]. apply sqrt_square. exact L.
  - apply Rleb_false in L. rewrite cos_neg, sin_neg, cos_acos, S by exact B. split; [reflexivity|].
    replace (s * s) with ((- s) * (- s)) by ring. rewrite sqrt_square by lra. ring.
Qed.

(** Polar form of a vector: radius and angle. *)
Definition rad (x y : R) : R := sqrt (x * x + y * y).
Definition pol (x y : R) : R := if Reqb (rad x y) 0 then 0 else ang (x / rad x y) (y / rad x y).
Lemma pol_ok : forall x y, 0 <= rad x y /\ rad x y * cos (pol x y) = x /\ rad x y * sin (pol x y) = y.
Proof.
  intros x y. assert (N : 0 <= x * x + y * y) by nra. pose proof (sqrt_sqrt _ N) as SS.
  split; [apply sqrt_pos|]. unfold pol. destruct (Reqb (rad x y) 0) eqn:E.
  - apply Reqb_spec in E. unfold rad in E |- *. rewrite E in *. assert (x = 0) by nra. assert (y = 0) by nra. subst. lra.
  - apply Reqb_false in E. destruct (ang_ok (x / rad x y) (y / rad x y)) as [C S].
    + unfold rad in *. replace (x / sqrt (x * x + y * y) * (x / sqrt (x * x + y * y)) + y / sqrt (x * x + y * y) * (y / sqrt (x * x + y * y)))
        with ((x * x + y * y) / (sqrt (x * x + y * y) * sqrt (x * x + y * y))) by (field; exact E).
      rewrite SS. field. intros F. rewrite F, sqrt_0 in E. congruence.
    + rewrite C, S. split; field; exact E.
Qed.

Definition svd2 (M : m2) : m2 * m2 :=
  let E := (m00 M + m11 M) / 2 in let F := (m00 M - m11 M) / 2 in
  let G := (m10 M + m01 M) / 2 in let H := (m10 M - m01 M) / 2 in
  let a1 := pol F G in let a2 := pol E H in
  let sg := if Rleb (rad F G) (rad E H) then 1 else -1 in
  (m2mul (m2rot ((a2 + a1) / 2)) (m2diag 1 sg), m2tr (m2rot ((a2 - a1) / 2))).

Lemma rot_orth : forall t, m2mul (m2tr (m2rot t)) (m2rot t) = m2id /\ m2mul (m2rot t) (m2tr (m2rot t)) = m2id.
Proof.
  intros t. pose proof (sin2_cos2 t) as S. unfold Rsqr in S.
  unfold m2mul, m2tr, m2rot, m2id. cbn. split; f_equal; lra.
Qed.

Lemma svd2_ok : forall M, let '(U, V) := svd2 M in svd_of M U V.
Proof.
  intros M. unfold svd2.
  set (E := (m00 M + m11 M) / 2). set (F := (m00 M - m11 M) / 2). set (G := (m10 M + m01 M) / 2). set (H := (m10 M - m01 M) / 2).
  destruct (pol_ok F G) as [R0 [R1 R2]]. destruct (pol_ok E H) as [Q0 [Q1 Q2]].
  set (a1 := pol F G) in *. set (a2 := pol E H) in *. set (r := rad F G) in *. set (q := rad E H) in *.
  set (sg := if Rleb r q then 1 else -1). set (ph := (a2 + a1) / 2). set (th := (a2 - a1) / 2).
  assert (sg2 : sg * sg = 1) by (unfold sg; destruct (Rleb r q); ring).
  destruct (rot_orth ph) as [P1 P2]. destruct (rot_orth th) as [T1 T2].
  assert (D2 : m2mul (m2diag 1 sg) (m2diag 1 sg) = m2id).
  { unfold m2mul, m2diag, m2id. cbn. f_equal; try ring. rewrite <- sg2. ring. }
  assert (DT : m2tr (m2diag 1 sg) = m2diag 1 sg) by reflexivity.
  assert (TT : forall a, m2tr (m2tr a) = a) by (intros [x y z w]; reflexivity).
  unfold svd_of. rewrite !m2_tr_mul, DT, TT. split; [|split; [|split; [|split]]].
  - rewrite m2_assoc, <- (m2_assoc (m2tr (m2rot ph))), P1, m2_id_l. exact D2.
  - rewrite m2_assoc, <- (m2_assoc (m2diag 1 sg)), D2, m2_id_l. exact P2.
  - exact T2.
  - exact T1.
  - exists (q + r), (sg * (q - r)). split.
    + unfold sg. destruct (Rleb r q) eqn:L; [apply Rleb_spec in L|apply Rleb_false in L]; lra.
    + assert (X : m2mul (m2mul (m2rot ph) (m2diag 1 sg)) (m2diag (q + r) (sg * (q - r))) = m2mul (m2rot ph) (m2diag (q + r) (q - r))).
      { rewrite m2_assoc. f_equal. unfold m2mul, m2diag. cbn. f_equal; try ring. transitivity (sg * sg * (q - r)); [ring|]. rewrite sg2. ring. }
      rewrite X.
      assert (A2 : a2 = ph + th) by (unfold ph, th; field). assert (A1 : a1 = ph - th) by (unfold ph, th; field).
      rewrite A2 in Q1, Q2. rewrite A1 in R1, R2. rewrite cos_plus in Q1. rewrite sin_plus in Q2. rewrite cos_minus in R1. rewrite sin_minus in R2.
      unfold m2mul, m2diag, m2rot. cbn. destruct M as [a b c d]. cbn in *. unfold E, F, G, H in *. f_equal; lra.
Qed.
