(** Chance over finitely many outcomes, and the errors of the quantities that a
    filter estimates as variables over it.  Nothing here mentions matrices of
    the filter, indices or sizes. *)
From Coq Require Import Reals List Arith Bool.
From Verif Require Import Base.Res Base.Mat Base.RDec Base.RSum Base.LinAlg Base.Inverse Base.Geom Model.Types Model.Ekf Model.Ops Spec.Contract Spec.ByName.
Import ListNotations.
Open Scope R_scope.

(** Outcomes with their probabilities. *)
Definition law (A : Type) : Type := list (R * A).
Fixpoint mean {A} (L : law A) (f : A -> R) : R :=
  match L with [] => 0 | (w, a) :: t => w * f a + mean t f end.
Definition chances {A} (L : law A) : Prop := (forall w a, In (w, a) L -> 0 <= w) /\ mean L (fun _ => 1) = 1.
(** How two variables vary together. *)
Definition spread {A} (L : law A) (f g : A -> R) : R := mean L (fun a => (f a - mean L f) * (g a - mean L g)).
Definition unrelated {A X Y} (L : law A) (P : X -> Prop) (Q : Y -> Prop) (f : A -> X -> R) (g : A -> Y -> R) : Prop :=
  forall x y, P x -> Q y -> spread L (fun a => f a x) (fun a => g a y) = 0.

(** The error of every named quantity, in every outcome. *)
Definition errors (A : Type) : Type := A -> name -> R.

Section Errors.
Context {A : Type}.
Variable L : law A.

(** New quantities [l] come in with errors of covariance [c] that have
    nothing to do with the errors of the others; those stay. *)
Definition joined (names l : list name) (c : mat R) (err err' : errors A) : Prop :=
  (forall a x, ~ In x l -> err' a x = err a x) /\
  (forall x y i j, position x l = Some i -> position y l = Some j ->
     spread L (fun a => err' a x) (fun a => err' a y) = ent c i j /\ mean L (fun a => err' a x) = 0) /\
  unrelated L (fun x => In x l) (fun y => In y names /\ ~ In y l) err' err'.

(** Time passes: every error is disturbed independently, with a variance that
    grows at the rate in force; then the errors of the velocity act on the
    position. *)
Definition drifted (names : list name) (dt : R) (rate : name -> R) (err err' : errors A) : Prop :=
  exists w : errors A, unrelated L (fun x => In x names) (fun y => In y names) err w /\
    (forall x, In x names -> mean L (fun a => w a x) = 0) /\
    (forall x y, In x names -> In y names -> spread L (fun a => w a x) (fun a => w a y) = if name_dec x y then dt * rate x else 0) /\
    (forall a x, err' a x = pushed dt (fun y => err a y + w a y) x).

(** A clone is wrong by as much as the body is. *)
Definition copied (cam n : nat) (err err' : errors A) : Prop := forall a x, err' a x = err a (origin cam n x).

(** [m] readings with sensitivities [H] and noise [v]: every estimate is
    corrected by the gain times the difference of reading and expectation. *)
Definition innovation (names : list name) (H : nat -> name -> R) (err : errors A) (v : A -> nat -> R) (a : A) (i : nat) : R :=
  over names (fun x => H i x * err a x) + v a i.
Definition gained (K : name -> nat -> R) (m : nat) (names : list name) (H : nat -> name -> R) (v : A -> nat -> R)
  (err err' : errors A) : Prop :=
  forall a x, err' a x = err a x - rsum m (fun i => K x i * innovation names H err v a i).
(** The gain of the abstract filter for the noise [N]. *)
Definition weight (b : byname) (m : nat) (H : nat -> name -> R) (N : mat R) (x : name) (i : nat) : R :=
  let PHt x i := over (n_names b) (fun y => n_cov b x y * H i y) in
  let S i j := over (n_names b) (fun x => H i x * PHt x j) + ent N i j in
  rsum m (fun j => PHt x j * finv m S j i).
(** Noise of covariance [N], independent of the errors so far. *)
Definition noise_of (names : list name) (m : nat) (N : nat -> nat -> R) (err : errors A) (v : A -> nat -> R) : Prop :=
  unrelated L (fun x => In x names) (fun i => (i < m)%nat) err v /\ (forall i, (i < m)%nat -> mean L (fun a => v a i) = 0) /\
  (forall i j, (i < m)%nat -> (j < m)%nat -> spread L (fun a => v a i) (fun a => v a j) = N i j).
Definition measured (b : byname) (m : nat) (H : nat -> name -> R) (N : mat R) (err err' : errors A) : Prop :=
  spd m (ent N) /\
  exists v, noise_of (n_names b) m (ent N) err v /\ gained (weight b m H N) m (n_names b) H v err err'.

(** What a call does to the errors. *)
Definition settled (mode : AugType) (w : nat * bool) (b : byname) (err err' : errors A) : Prop :=
  match mode with
  | ATime | AError => if snd w then copied 0 (n_next b 0) err err' else err' = err
  | _ => err' = err
  end.
Definition moved (mode : AugType) (w : nat * bool) (b : byname) (c : call) (err err' : errors A) : Prop :=
  match c with
  | Measure H jac _ noise => measured b (nr jac) H noise err err'
  | Do o =>
    match o with
    | ORegImu id st c => if known id (n_imus b) then err' = err else joined (n_names b) (imu_names id st) c err err'
    | ORegGps id st c => if known id (n_gpss b) then err' = err else joined (n_names b) (gps_names id st) c err err'
    | ORegCam id st c => if known id (n_cams b) then err' = err else joined (n_names b) (cam_names id st) c err err'
    | ORegFid st c => if known (f_id st) (n_fids b) then err' = err else joined (n_names b) (fid_names (f_id st) st) c err err'
    | OPredict t =>
        if Rltb t (n_time b) then err' = err
        else exists err1, (if n_gravity b then drifted (n_names b) (t - n_time b) (n_rate b) err err1 else err1 = err) /\ settled mode w b err1 err'
    | OAugment => settled mode w b err err'
    | OFrame cam _ =>
        if (match mode with AAll => true | APrimary => (cam =? n_primary b)%nat | _ => false end)
        then copied cam (n_next b cam) err err' else err' = err
    | _ => err' = err
    end
  end.
Inductive lives (mode : AugType) : byname -> errors A -> list (call * (nat * bool)) -> errors A -> Prop :=
| lives_nil : forall b err, lives mode b err [] err
| lives_cons : forall b err err1 err2 c w l, moved mode w b c err err1 -> lives mode (nm_step mode w b c) err1 l err2 ->
    lives mode b err ((c, w) :: l) err2.

(** Errors the filter starts with. *)
Definition initial (err : errors A) : Prop :=
  forall j k, (j < 18)%nat -> (k < 18)%nat ->
    mean L (fun a => err a (NBody j)) = 0 /\
    spread L (fun a => err a (NBody j)) (fun a => err a (NBody k)) = if Nat.eqb j k then 1 / 100 else 0.

(** The abstract filter is right about the errors. *)
Definition right_about (b : byname) (err : errors A) : Prop :=
  forall x y, In x (n_names b) -> In y (n_names b) ->
    mean L (fun a => err a x) = 0 /\ spread L (fun a => err a x) (fun a => err a y) = n_cov b x y.
End Errors.

(** Calls with covariances and noise that can be: positive semidefinite for
    what is registered, positive definite for readings, and noise rates that
    are not negative. *)
Definition can_join (l : list name) (c : mat R) (stab : name -> R) : Prop :=
  psd (length l) (ent c) /\ forall x, In x l -> 0 <= stab x.
Definition decent (c : call) : Prop :=
  match c with
  | Measure _ jac _ noise => spd (nr jac) (ent noise)
  | Do o =>
    match o with
    | ORegImu id st c => can_join (imu_names id st) c (imu_stab st)
    | ORegGps id st c => can_join (gps_names id st) c (gps_stab st)
    | ORegCam id st c => can_join (cam_names id st) c (cam_stab st)
    | ORegFid st c => can_join (fid_names (f_id st) st) c (fid_stab st)
    | OSetNoise q => forall k, (k < 18)%nat -> 0 <= ent q k 0
    | _ => True
    end
  end.

(** The chance that something holds. *)
Definition chance {A} (L : law A) (p : A -> bool) : R := mean L (fun a => if p a then 1 else 0).

(** After any history, a measurement of which the filter is told the noise
    covariance [N] while it really is [N0]. *)
Definition misjudging (A : Type) (p : params) (q : mat R) (pe : V3) (an : R) (l : list call) (H : nat -> name -> R) (jac res N : mat R)
  (e e' : ekf) (L : law A) (err1 err2 : errors A) (N0 : nat -> nat -> R) : Prop :=
  noise_arg q /\ p_root p = false /\
  respects (EKF_init p q pe an) (map op_of (l ++ [Measure H jac res N])) /\
  valid (p_aug p) (EKF_init p q pe an) (nm_init q) (l ++ [Measure H jac res N]) /\
  run (EKF_init p q pe an) (map op_of l) = OK e /\ step e (OKalman jac res N) = OK e' /\
  chances L /\
  let h := combine l (decisions (EKF_init p q pe an) l) in
  let b := nm_run (p_aug p) (nm_init q) h in
  (exists err, initial L err /\ lives L (p_aug p) (nm_init q) err h err1) /\
  exists v, noise_of L (n_names b) (nr jac) N0 err1 v /\ gained (weight b (nr jac) H N) (nr jac) (n_names b) H v err1 err2.
