(** What dropping a clone does in square-root form. *)
From Coq Require Import Reals List Arith Bool.
From Verif Require Import Base.Mat Base.RSum Base.LinAlg Model.Types Model.Ekf Spec.Layout Spec.Named.
Import ListNotations.
Open Scope R_scope.

(** The part of the covariance of the scalars at [i] and [j] that rows
    [x, ..., x + 5] of the factor carry. *)
Definition row_share (e : ekf) (x i j : nat) : R :=
  rsum 6 (fun k => ent (e_cov e) (x + k)%nat i * ent (e_cov e) (x + k)%nat j).

(** Every scalar [a] of [e'] was the scalar [g a] of [e]; its covariances lack
    the share of the six rows from [x] on. *)
Record forgets (e e' : ekf) (g : label -> label) (x : nat) : Prop := mkForgets {
  fg_names : forall a, In a (layout (e_state e')) -> In (g a) (layout (e_state e));
  fg_cov : forall a b i j, In a (layout (e_state e')) -> In b (layout (e_state e')) ->
    nth_error (layout (e_state e)) i = Some (g a) -> nth_error (layout (e_state e)) j = Some (g b) ->
    cov_is e' a b (covariance e i j - row_share e x i j) }.

Definition not_clone (a : label) : Prop := match a with LAug _ _ _ => False | _ => True end.
