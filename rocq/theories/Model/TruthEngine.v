(** The true body motion of the simulation.
    /repo/src/infrastructure/sim/truth_engine_{cyclic,smoother,spline}.cpp.

    The debug logger argument and the base class (sensor truths, grid
    features, writing of the truth file) are not modelled here; the base
    class contributes [m_max_time]. *)
From Coq Require Import Reals List Arith Bool ZArith.
From Verif Require Import Base.Res Base.Mat Base.RDec Base.Geom Model.TypeHelper Model.MathHelper.
Import ListNotations.
Open Scope R_scope.

(** * Cyclic truth *)

(** truth_engine_cyclic.hpp 117-123, truth_engine_cyclic.cpp 26-45. *)
Record cyclic : Type := mkCyclic {
  cy_pos_frequency : V3;
  cy_ang_frequency : V3;
  cy_pos_offset : V3;
  cy_ang_offset : V3;
  cy_pos_amplitude : R;
  cy_ang_amplitude : R;
  cy_stationary_time : R }.

(** The expressions of one component: lines 55-60 and 113-118 ([cyc]), 75-80
    and 159-164 ([dcyc]), 94-99 and 182-187 ([ddcyc]). *)
Definition cyc (amp f rel : R) : R := amp / 2 * (1 - cos (f * 2 * PI * rel)).
Definition dcyc (amp f rel : R) : R := amp * f * PI * sin (f * 2 * PI * rel).
Definition ddcyc (amp f rel : R) : R := amp * 2 * PI * PI * f * f * cos (f * 2 * PI * rel).
Definition each (g : R -> R) (f : V3) : V3 := mkV3 (g (vx f)) (g (vy f)) (g (vz f)).

(** truth_engine_cyclic.cpp 47-65. *)
Definition cy_GetBodyPosition (c : cyclic) (time : R) : V3 :=
  let rel := time - cy_stationary_time c in
  if Rltb rel 0 then cy_pos_offset c
  else vadd (each (fun f => cyc (cy_pos_amplitude c) f rel) (cy_pos_frequency c)) (cy_pos_offset c).

(** 67-84. *)
Definition cy_GetBodyVelocity (c : cyclic) (time : R) : V3 :=
  let rel := time - cy_stationary_time c in
  if Rltb rel 0 then v0 else each (fun f => dcyc (cy_pos_amplitude c) f rel) (cy_pos_frequency c).

(** 86-103. *)
Definition cy_GetBodyAcceleration (c : cyclic) (time : R) : V3 :=
  let rel := time - cy_stationary_time c in
  if Rltb rel 0 then v0 else each (fun f => ddcyc (cy_pos_amplitude c) f rel) (cy_pos_frequency c).

(** 105-123. *)
Definition cy_GetBodyRollPitchYaw (c : cyclic) (time : R) : V3 :=
  let rel := time - cy_stationary_time c in
  if Rltb rel 0 then v0
  else vadd (each (fun f => cyc (cy_ang_amplitude c) f rel) (cy_ang_frequency c)) (cy_ang_offset c).

(** 125-132. *)
Definition cy_GetBodyAngularPosition (c : cyclic) (time : R) : quat :=
  EigVecToQuat (cy_GetBodyRollPitchYaw c time).

(** 134-149. *)
Definition EulerDerivativeTransform (rpy : V3) : mat R :=
  let roll := vx rpy in let pitch := vy rpy in
  of_list 0 3 3 (
    (1 :: 0 :: - sin pitch :: nil) ::
    (0 :: cos roll :: sin roll * cos pitch :: nil) ::
    (0 :: - sin roll :: cos roll * cos pitch :: nil) :: nil).

(** 151-172. *)
Definition cy_GetBodyAngularRate (c : cyclic) (time : R) : V3 :=
  let rel := time - cy_stationary_time c in
  if Rltb rel 0 then v0
  else
    let d_rpy := each (fun f => dcyc (cy_ang_amplitude c) f rel) (cy_ang_frequency c) in
    mat_vec (EulerDerivativeTransform (cy_GetBodyRollPitchYaw c time)) d_rpy.

(** 174-194. *)
Definition cy_GetBodyAngularAcceleration (c : cyclic) (time : R) : V3 :=
  let rel := time - cy_stationary_time c in
  if Rltb rel 0 then v0
  else
    let dd_rpy := each (fun f => ddcyc (cy_ang_amplitude c) f rel) (cy_ang_frequency c) in
    mat_vec (EulerDerivativeTransform (cy_GetBodyRollPitchYaw c time)) dd_rpy.

(** 196-204. *)
Definition cy_SetBodyPosCycleFrequency (c : cyclic) (f : V3) : cyclic :=
  mkCyclic f (cy_ang_frequency c) (cy_pos_offset c) (cy_ang_offset c) (cy_pos_amplitude c)
    (cy_ang_amplitude c) (cy_stationary_time c).
Definition cy_SetBodyAngCycleFrequency (c : cyclic) (f : V3) : cyclic :=
  mkCyclic (cy_pos_frequency c) f (cy_pos_offset c) (cy_ang_offset c) (cy_pos_amplitude c)
    (cy_ang_amplitude c) (cy_stationary_time c).

(** * Sampled truth *)

(** [std::vector::operator[]]: undefined outside the vector. *)
Definition vindex {A : Type} (l : list A) (i : nat) : res A :=
  match nth_error l i with Some a => OK a | None => UB end.
(** Cast of a whole double to [unsigned int]: undefined when negative (values
    above the range of unsigned are not distinguished: the vectors are
    shorter than that). *)
Definition to_unsigned (z : Z) : res nat := if (z <? 0)%Z then UB else OK (Z.to_nat z).

(** truth_engine_smoother.hpp 103-111. *)
Record smoother : Type := mkSmoother {
  sm_pos : list V3;
  sm_vel : list V3;
  sm_acc : list V3;
  sm_ang : list V3;
  sm_ang_vel : list V3;
  sm_ang_acc : list V3;
  sm_rate : R;
  sm_max_time : R;
  sm_stationary_time : R }.

(** truth_engine_smoother.cpp 26-35. *)
Definition GetInterpolatedValue (rate time : R) (values : list V3) : res V3 :=
  let whole := trunc (time * rate) in
  let alpha := time * rate - IZR whole in
  let* index := to_unsigned whole in
  let* a := vindex values index in
  let* b := vindex values (index + 1) in
  OK (vadd (vscale (1 - alpha) a) (vscale alpha b)).

(** 241-244. *)
Definition sm_IsTimeInvalid (s : smoother) (time : R) : bool := Rltb time 0 || Rltb (sm_max_time s) time.

(** 37-71, 86-108: the five getters of a vector differ in the samples used. *)
Definition sm_get (values : smoother -> list V3) (s : smoother) (time : R) : res V3 :=
  let relative_time := time - sm_stationary_time s in
  if sm_IsTimeInvalid s relative_time then OK v0
  else GetInterpolatedValue (sm_rate s) time (values s).
Definition sm_GetBodyPosition : smoother -> R -> res V3 := sm_get sm_pos.
Definition sm_GetBodyVelocity : smoother -> R -> res V3 := sm_get sm_vel.
Definition sm_GetBodyAcceleration : smoother -> R -> res V3 := sm_get sm_acc.
Definition sm_GetBodyAngularRate : smoother -> R -> res V3 := sm_get sm_ang_vel.
Definition sm_GetBodyAngularAcceleration : smoother -> R -> res V3 := sm_get sm_ang_acc.
(** 73-84. *)
Definition sm_GetBodyAngularPosition (s : smoother) (time : R) : res quat :=
  let relative_time := time - sm_stationary_time s in
  if sm_IsTimeInvalid s relative_time then OK qid
  else rmap EigVecToQuat (GetInterpolatedValue (sm_rate s) time (sm_ang s)).

(** 122-124: [n] is [times.size() - j], so that [j < times.size()] is
    [n > 0]. *)
Fixpoint seek (n : nat) (times : list R) (t : R) (j : nat) : res nat :=
  match n with
  | O => OK j
  | S n' =>
      let* tj := vindex times j in
      if Rltb t tj then seek n' times t (j + 1)
      else
        let* tj1 := vindex times (j + 1) in
        if Rltb tj1 t then seek n' times t (j + 1) else OK j
  end.
(** 119-132.  Undefined: [times] empty, reads past the end of [times] or
    [vectors], equal neighbouring control times (0 / 0). *)
Fixpoint interpolate_loop (m_time times : list R) (vectors : list V3) (j : nat) : res (list V3) :=
  match m_time with
  | [] => OK []
  | t :: m_time =>
      let* first := vindex times 0 in
      let* last := vindex times (length times - 1) in
      if Rltb first t && Rltb t last then
        let* j := seek (length times - j) times t j in
        if (length times <=? j)%nat then OK []
        else
          let* tj := vindex times j in
          let* tj1 := vindex times (j + 1) in
          let* _ := guard (negb (Reqb (tj1 - tj) 0)) in
          let alpha := (tj1 - t) / (tj1 - tj) in
          let* a := vindex vectors j in
          let* b := vindex vectors (j + 1) in
          let* rest := interpolate_loop m_time times vectors j in
          OK (vadd (vscale alpha a) (vscale (1 - alpha) b) :: rest)
      else
        let* rest := interpolate_loop m_time times vectors j in OK (v0 :: rest)
  end.
(** 111-135. *)
Definition InterpolateVectors (m_time times : list R) (vectors : list V3) : res (list V3) :=
  interpolate_loop m_time times vectors 0.

(** 138-148.  Undefined: no value (unsigned wrap in the loop bound), one
    value ([back()] of the empty result), equal neighbouring times. *)
Definition Derivative (times : list R) (values : list V3) : res (list V3) :=
  let* n := usub (length values) 1 in
  let* ds := mapM (fun i =>
    let* b := vindex values (i + 1) in
    let* a := vindex values i in
    let* tb := vindex times (i + 1) in
    let* ta := vindex times i in
    let* _ := guard (negb (Reqb (tb - ta) 0)) in
    OK (vdiv (vsub b a) (tb - ta))) (seq 0 n) in
  let* _ := guard (negb (n =? 0)%nat) in
  let* last := vindex ds (n - 1) in
  OK (ds ++ [last]).

(** 211-222.  [draw i mean std_dev] is the result of the [VecNormRand] call for
    control point [i]. *)
Definition control_points (size : nat) (flat : list R) (errors : V3) (draw : nat -> V3 -> V3 -> V3) : res (list V3) :=
  mapM (fun i =>
    let* x := vindex flat (3 * i) in
    let* y := vindex flat (3 * i + 1) in
    let* z := vindex flat (3 * i + 2) in
    OK (if (i =? 0)%nat then mkV3 x y z else draw i (mkV3 x y z) errors)) (seq 0 size).

(** [std::ceil]. *)
Definition c_ceil (x : R) : Z := (- Int_part (- x))%Z.

(** 188-239. *)
Definition mk_smoother (times poses angles position_errors angle_errors : list R)
  (stationary_time max_time rate : R) (draw_pos draw_ang : nat -> V3 -> V3 -> V3) : res smoother :=
  let spline_size := (Nat.min (length poses) (length angles) / 3)%nat in
  let* pos_errors := StdToEigVec position_errors in
  let* ang_errors := StdToEigVec angle_errors in
  let* position_vectors := control_points spline_size poses pos_errors draw_pos in
  let* angle_vectors := control_points spline_size angles ang_errors draw_ang in
  let* n_points := to_unsigned (c_ceil (max_time * rate)) in
  let m_time := map (fun i => INR i / rate) (seq 0 n_points) in
  let* pos := InterpolateVectors m_time times position_vectors in
  let* ang := InterpolateVectors m_time times angle_vectors in
  let* vel := Derivative m_time pos in
  let* acc := Derivative m_time vel in
  let* ang_vel := Derivative m_time ang in
  let* ang_acc := Derivative m_time ang_vel in
  OK (mkSmoother pos vel acc ang ang_vel ang_acc rate max_time stationary_time).

(** * Spline truth *)

(** An [Eigen::Spline3d]: the curve, its [derivatives(u, 1)] and
    [derivatives(u, 2)] columns, and whether its first control point is NaN
    (truth_engine_spline.cpp 174-177).  The fit itself is Eigen's and is not
    modelled. *)
Record spline : Type := mkSpline {
  spl_at : R -> V3;
  spl_d1 : R -> V3;
  spl_d2 : R -> V3;
  spl_invalid : bool }.

(** truth_engine_spline.hpp 93-95. *)
Record spline_truth : Type := mkSplineTruth {
  st_pos : spline;
  st_ang : spline;
  st_max_time : R;
  st_stationary_time : R }.

(** truth_engine_spline.cpp 169-172. *)
Definition st_IsTimeInvalid (s : spline_truth) (time : R) : bool := Rltb time 0 || Rltb (st_max_time s) time.

(** 27-37, 39-53, 55-70 and 89-123: undefined (not a number) when the spline
    is evaluated with [m_max_time = m_stationary_time]. *)
Definition st_eval {A : Type} (s : spline_truth) (sp : spline) (still : A) (f : R -> R -> A) (time : R) : res A :=
  let relative_time := time - st_stationary_time s in
  if st_IsTimeInvalid s relative_time || spl_invalid sp then OK still
  else
    let span := st_max_time s - st_stationary_time s in
    let* _ := guard (negb (Reqb span 0)) in
    OK (f (relative_time / span) span).
Definition st_GetBodyPosition (s : spline_truth) : R -> res V3 :=
  st_eval s (st_pos s) v0 (fun u _ => spl_at (st_pos s) u).
Definition st_GetBodyVelocity (s : spline_truth) : R -> res V3 :=
  st_eval s (st_pos s) v0 (fun u span => vdiv (spl_d1 (st_pos s) u) span).
Definition st_GetBodyAcceleration (s : spline_truth) : R -> res V3 :=
  st_eval s (st_pos s) v0 (fun u span => vdiv (vdiv (spl_d2 (st_pos s) u) span) span).
(** 72-87. *)
Definition st_GetBodyAngularPosition (s : spline_truth) : R -> res quat :=
  st_eval s (st_ang s) qid (fun u _ => EigVecToQuat (spl_at (st_ang s) u)).
Definition st_GetBodyAngularRate (s : spline_truth) : R -> res V3 :=
  st_eval s (st_ang s) v0 (fun u span => vdiv (spl_d1 (st_ang s) u) span).
Definition st_GetBodyAngularAcceleration (s : spline_truth) : R -> res V3 :=
  st_eval s (st_ang s) v0 (fun u span => vdiv (vdiv (spl_d2 (st_ang s) u) span) span).
