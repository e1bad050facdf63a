(** Three coordinates that vary by chance, and draws with given means and
    standard deviations. *)
From Coq Require Import Reals List Arith Bool.
From Verif Require Import Base.Mat Base.Geom Base.RSum Spec.Chance.
Import ListNotations.
Open Scope R_scope.

Definition coord (i : nat) (v : V3) : R := match i with 0 => vx v | 1 => vy v | _ => vz v end.
Definition centred {A} (L : law A) (f : A -> V3) (m : V3) : Prop :=
  forall i, (i < 3)%nat -> mean L (fun a => coord i (f a)) = coord i m.
Definition scattered {A} (L : law A) (f : A -> V3) (C : nat -> nat -> R) : Prop :=
  forall i j, (i < 3)%nat -> (j < 3)%nat -> spread L (fun a => coord i (f a)) (fun a => coord j (f a)) = C i j.
(** Independent coordinates with standard deviations [d]. *)
Definition squares (d : V3) (i j : nat) : R := if Nat.eqb i j then coord i d * coord i d else 0.
(** Draws around any mean with any standard deviations.  Only the first two
    moments matter here. *)
Definition proper_draws {A} (L : law A) (vr : A -> V3 -> V3 -> V3) : Prop :=
  forall m d, centred L (fun a => vr a m d) m /\ scattered L (fun a => vr a m d) (squares d).

(** The errors of a board detection on the diagonal, position first. *)
Definition told_board (te re : V3) (i j : nat) : R :=
  if Nat.eqb i j then if (i <? 3)%nat then coord i te else coord (i - 3) re else 0.
