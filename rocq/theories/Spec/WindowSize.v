(** How many clones a camera has after a history. *)
From Coq Require Import Reals List Arith Bool.
From Verif Require Import Base.Res Model.Types Model.Ekf Model.Updater Model.Ops.
Import ListNotations.
Open Scope nat_scope.

(** Every frame of the camera is cloned, now and later (0 stands for no
    primary camera). *)
Definition cloned_each (e : ekf) (cam : nat) : Prop :=
  p_aug (e_par e) = AAll \/ (p_aug (e_par e) = APrimary /\ e_primary e = cam /\ cam <> 0).
(** [m]: the maximum length in force; [n]: the clones held. *)
Fixpoint window_size (cam m n : nat) (l : list op) : nat :=
  match l with
  | [] => n
  | OSetLen k :: l => window_size cam k n l
  | OFrame c _ :: l => window_size cam m (if Nat.eqb c cam && Nat.ltb n m then S n else n) l
  | _ :: l => window_size cam m n l
  end.
