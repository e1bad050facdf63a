(** How well a filter can know where it is: moving the body and all its
    clones together. *)
From Coq Require Import Reals List Arith Bool.
From Verif Require Import Base.Res Base.Mat Base.RDec Base.RSum Base.LinAlg Base.Geom Base.AMap
  Model.Types Model.Ekf Model.Ops Spec.Named Spec.ByName.
Import ListNotations.
Open Scope R_scope.

(** [w] is the change of the estimates when the body and all clones of it are
    moved by [v]: every position among them changes by [v], all else stays. *)
Definition moved_along (e : ekf) (v : nat -> R) (w : nat -> R) : Prop :=
  (forall k, (k < 3)%nat -> w k = v k) /\
  (forall cam a k, In a (aug_at e cam) -> (k < 3)%nat -> w (a_index a + k)%nat = v k) /\
  (forall i, (i < e_size e)%nat -> (3 <= i)%nat ->
     (forall cam a k, In a (aug_at e cam) -> (k < 3)%nat -> i <> (a_index a + k)%nat) -> w i = 0).
(** A measurement does not notice such a move. *)
Definition blind (e : ekf) (jac : mat R) : Prop :=
  forall v w r, moved_along e v w -> (r < nr jac)%nat -> rsum (e_size e) (fun i => ent jac r i * w i) = 0.
Fixpoint all_blind (e : ekf) (l : list call) : Prop :=
  match l with
  | [] => True
  | c :: t => match c with Measure _ jac _ _ => blind e jac | _ => True end /\
      forall e', step e (op_of c) = OK e' -> all_blind e' t
  end.
(** The filter is no surer of where all this is than [s] (a variance): for
    every linear combination [x] of the estimates, the variance is at least
    what an uncertainty [s] along each axis makes of it. *)
Definition unsure (e : ekf) (s : R) : Prop :=
  forall x w0 w1 w2, moved_along e (fun k => if Nat.eqb k 0 then 1 else 0) w0 ->
    moved_along e (fun k => if Nat.eqb k 1 then 1 else 0) w1 -> moved_along e (fun k => if Nat.eqb k 2 then 1 else 0) w2 ->
    let dot w := rsum (e_size e) (fun i => x i * w i) in
    s * (dot w0 * dot w0 + dot w1 * dot w1 + dot w2 * dot w2) <= qf (e_size e) (covariance e) x.
