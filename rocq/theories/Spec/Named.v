(** The covariance seen through the names of the scalar error states. *)
From Coq Require Import Reals List Arith Bool.
From Verif Require Import Base.Mat Base.LinAlg Base.AMap Model.Types Model.Ekf Spec.Layout.
Import ListNotations.
Open Scope nat_scope.

(** Scalar [a] sits at position [i] of the error state. *)
Definition at_ (s : State) (a : label) (i : nat) : Prop := nth_error (layout s) i = Some a.

(** The covariance a stored matrix of side [n] stands for: itself, or
    [S^T S] when a square root is stored. *)
Definition stands_for (root : bool) (n : nat) (c : mat R) : fmat :=
  if root then gram n (ent c) else ent c.
Definition covariance (e : ekf) : fmat := stands_for (p_root (e_par e)) (e_size e) (e_cov e).

(** [P], whose rows are named by [L], holds [v] between [a] and [b]. *)
Definition named (L : list label) (P : fmat) (a b : label) (v : R) : Prop :=
  exists i j, nth_error L i = Some a /\ nth_error L j = Some b /\ P i j = v.

(** In filter [e] the covariance between the scalars [a] and [b] is [v]. *)
Definition cov_is (e : ekf) (a b : label) (v : R) : Prop :=
  named (layout (e_state e)) (covariance e) a b v.

(** Adding the scalars [N] with initial covariance [C], nothing else touched. *)
Record adds (e e' : ekf) (N : list label) (C : fmat) : Prop := mkAdds {
  adds_names : forall a, In a (layout (e_state e')) <-> In a (layout (e_state e)) \/ In a N;
  adds_old : forall a b v, cov_is e a b v -> cov_is e' a b v;
  adds_new : forall k l a b, nth_error N k = Some a -> nth_error N l = Some b -> cov_is e' a b (C k l);
  adds_cross : forall a b, In a N -> In b (layout (e_state e)) -> cov_is e' a b 0%R /\ cov_is e' b a 0%R }.

(** The body scalar a clone scalar is a copy of: position or orientation. *)
Definition clone_of_body (k : nat) : label := if k <? 3 then LBody k else LBody (k + 6).

(** [g] tells which scalar of [e] each scalar of [e'] stems from; the
    covariances are inherited along [g]. *)
Record inherits (e e' : ekf) (g : label -> label) : Prop := mkInherits {
  inh_names : forall a, In a (layout (e_state e')) -> In (g a) (layout (e_state e));
  inh_cov : forall a b v, In a (layout (e_state e')) -> In b (layout (e_state e')) ->
    cov_is e (g a) (g b) v -> cov_is e' a b v }.

(** Adding clone number [n] of window [key]. *)
Definition from_clone (key n : nat) (a : label) : label :=
  match a with
  | LAug k p c => if Nat.eqb k key && Nat.eqb p n then clone_of_body c else a
  | _ => a
  end.

(** Dropping clone number [i] of window [key]: younger ones move up. *)
Definition from_drop (key i : nat) (a : label) : label :=
  match a with
  | LAug k p c => if Nat.eqb k key && Nat.leb i p then LAug k (S p) c else a
  | _ => a
  end.

(** Scalars [LAug key n k] are new and copy the body pose; nothing else
    changes. *)
Record copies_body (e e' : ekf) (key n : nat) : Prop := mkCopies {
  cb_names : forall a, In a (layout (e_state e')) <->
    In a (layout (e_state e)) \/ exists k, k < 6 /\ a = LAug key n k;
  cb_fresh : forall k, ~ In (LAug key n k) (layout (e_state e));
  cb_old : forall a b v, cov_is e a b v -> cov_is e' a b v;
  cb_new : forall k l v, k < 6 -> l < 6 -> cov_is e (clone_of_body k) (clone_of_body l) v ->
    cov_is e' (LAug key n k) (LAug key n l) v;
  cb_cross : forall k b v, k < 6 -> cov_is e (clone_of_body k) b v -> cov_is e' (LAug key n k) b v;
  cb_cross' : forall k b v, k < 6 -> cov_is e b (clone_of_body k) v -> cov_is e' b (LAug key n k) v }.

(** The [d] oldest clones of window [key] are gone, the others moved up. *)
Definition from_drops (key d : nat) (a : label) : label :=
  match a with
  | LAug k p c => if Nat.eqb k key then LAug k (p + d) c else a
  | _ => a
  end.
