(** What thinning and match filtering should do, in terms of pixels and
    index pairs. *)
From Coq Require Import Reals List Arith ZArith.
From Verif Require Import Model.MsckfUpdater Model.Trackers.
Import ListNotations.
Open Scope R_scope.

(** The point lies in the square [a], [b] of ten by ten pixels. *)
Definition in_square (a b : Z) (p : KeyPoint) : Prop :=
  10 * IZR a <= kp_x p < 10 * IZR a + 10 /\ 10 * IZR b <= kp_y p < 10 * IZR b + 10.
Definition together (p q : KeyPoint) : Prop := exists a b, in_square a b p /\ in_square a b q.
Definition in_image (rows cols : Z) (p : KeyPoint) : Prop :=
  0 <= kp_x p < IZR cols /\ 0 <= kp_y p < IZR rows.
(** The point lies in a square that fits into the image completely. *)
Definition in_full_square (rows cols : Z) (p : KeyPoint) : Prop :=
  exists a b, in_square a b p /\ (0 <= a)%Z /\ (0 <= b)%Z /\ (10 * a + 10 <= cols)%Z /\ (10 * b + 10 <= rows)%Z.

(** The two nearest neighbours of descriptor [i] of [n], among [k]
    descriptors, are entry [i] of the result. *)
Definition neighbours (n k : nat) (ms : list (list DMatch)) : Prop :=
  forall i m d, nth_error ms i = Some m -> In d m -> dm_query d = i /\ (i < n)%nat /\ (dm_train d < k)%nat.

(** The best match of [d]'s query point is [d], with a runner-up. *)
Definition best (ms : list (list DMatch)) (d : DMatch) : Prop := exists e, In [d; e] ms.

Definition distance (p q : KeyPoint) : R := sqrt ((kp_x q - kp_x p) ^ 2 + (kp_y q - kp_y p) ^ 2).
(** Distances between the matched points; the points exist. *)
Inductive spans (prev curr : list KeyPoint) : list DMatch -> list R -> Prop :=
| spans_nil : spans prev curr [] []
| spans_cons : forall m p q ms ds, nth_error prev (dm_query m) = Some p -> nth_error curr (dm_train m) = Some q ->
    spans prev curr ms ds -> spans prev curr (m :: ms) (distance p q :: ds).
Fixpoint total (l : list R) : R := match l with [] => 0 | x :: l => x + total l end.
(** Of the list, exactly the entries whose value passes. *)
Inductive keeps {A B : Type} (ok : B -> Prop) : list A -> list B -> list A -> Prop :=
| keeps_nil : keeps ok [] [] []
| keeps_yes : forall a b l m r, ok b -> keeps ok l m r -> keeps ok (a :: l) (b :: m) (a :: r)
| keeps_no : forall a b l m r, ~ ok b -> keeps ok l m r -> keeps ok (a :: l) (b :: m) r.
