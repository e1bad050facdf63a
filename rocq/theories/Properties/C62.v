(** C62: The covariance the filter keeps is the covariance of the errors it
    makes, as long as the noise is what the filter was told. *)
From Coq Require Import Reals List Arith Bool Lia Lra.
From Verif Require Import Base.Res Base.Mat Base.RDec Base.RSum Base.LinAlg Base.Geom Base.AMap
  Model.Types Model.Ekf Model.Ops
  Spec.Layout Spec.Contract Spec.Named Spec.ByName Spec.Chance
  Proofs.Demo Proofs.ByNameDemo Proofs.ChanceExists Proofs.ChanceHistory.
Import ListNotations.
Open Scope R_scope.

(** [lives] lets the errors evolve linearly, as the filter assumes: new
    quantities come with independent errors of the covariance given at
    registration, time adds independent disturbances at the rates in force and
    carries the velocity error into the position, a clone repeats the error of
    the body, and a reading with independent noise of the covariance given
    changes every error by gain times innovation. *)
Theorem C62_history : forall p q pe an l e A (L : law A) err err', noise_arg q -> p_root p = false ->
  respects (EKF_init p q pe an) (map op_of l) -> valid (p_aug p) (EKF_init p q pe an) (nm_init q) l ->
  run (EKF_init p q pe an) (map op_of l) = OK e -> chances L -> initial L err ->
  let h := combine l (decisions (EKF_init p q pe an) l) in
  let b := nm_run (p_aug p) (nm_init q) h in
  lives L (p_aug p) (nm_init q) err h err' ->
  forall x y i j, In x (n_names b) -> In y (n_names b) -> told e (n_first b) x = Some i -> told e (n_first b) y = Some j ->
    mean L (fun a => err' a x) = 0 /\ spread L (fun a => err' a x) (fun a => err' a y) = covariance e i j.
Proof. exact covariance_of_errors. Qed.
Print Assumptions C62_history.

(** So an error exceeds [k] times the square root of its diagonal entry with
    a chance of at most one in [k * k]. *)
Theorem C62_rarely_large : forall p q pe an l e A (L : law A) err err', noise_arg q -> p_root p = false ->
  respects (EKF_init p q pe an) (map op_of l) -> valid (p_aug p) (EKF_init p q pe an) (nm_init q) l ->
  run (EKF_init p q pe an) (map op_of l) = OK e -> chances L -> initial L err ->
  let h := combine l (decisions (EKF_init p q pe an) l) in
  let b := nm_run (p_aug p) (nm_init q) h in
  lives L (p_aug p) (nm_init q) err h err' ->
  forall x i k, In x (n_names b) -> told e (n_first b) x = Some i -> 0 < covariance e i i -> 0 < k ->
    chance L (fun a => Rltb (k * sqrt (covariance e i i)) (Rabs (err' a x))) <= 1 / (k * k).
Proof. exact rarely_large. Qed.
Print Assumptions C62_rarely_large.

(** Such errors exist for every history with proper arguments, with room for
    one more noise of any covariance. *)
Theorem C62_exists : forall mode q l m (N0 : nat -> nat -> R),
  (forall k, (k < 18)%nat -> 0 <= ent q k 0) -> (forall c w, In (c, w) l -> decent c) -> psd m N0 ->
  exists (L : law outcome) err err' v, chances L /\ initial L err /\ lives L mode (nm_init q) err l err' /\
    noise_of L (n_names (nm_run mode (nm_init q) l)) m N0 err' v.
Proof. exact errors_exist. Qed.
Print Assumptions C62_exists.

(** A reading whose noise really has the covariance [N0] while the filter is
    told [N]: the two covariances differ by the misjudgement seen through the
    gain. *)
Theorem C62_misjudged : forall A p q pe an l H jac res N e e' (L : law A) err1 err2 N0,
  misjudging A p q pe an l H jac res N e e' L err1 err2 N0 ->
  let b := nm_run (p_aug p) (nm_init q) (combine l (decisions (EKF_init p q pe an) l)) in
  forall x y i j, In x (n_names b) -> In y (n_names b) -> told e' (n_first b) x = Some i -> told e' (n_first b) y = Some j ->
    mean L (fun a => err2 a x) = 0 /\
    spread L (fun a => err2 a x) (fun a => err2 a y) = covariance e' i j +
      rsum (nr jac) (fun k => rsum (nr jac) (fun k' => weight b (nr jac) H N x k * (N0 k k' - ent N k k') * weight b (nr jac) H N y k')).
Proof. exact misjudged. Qed.
Print Assumptions C62_misjudged.

(** Told too much noise, the filter claims no more certainty than it has; told
    too little, no less. *)
Theorem C62_over_under : forall A p q pe an l H jac res N e e' (L : law A) err1 err2 N0,
  misjudging A p q pe an l H jac res N e e' L err1 err2 N0 ->
  let b := nm_run (p_aug p) (nm_init q) (combine l (decisions (EKF_init p q pe an) l)) in
  forall x i, In x (n_names b) -> told e' (n_first b) x = Some i ->
    (psd (nr jac) (fun k k' => ent N k k' - N0 k k') -> spread L (fun a => err2 a x) (fun a => err2 a x) <= covariance e' i i) /\
    (psd (nr jac) (fun k k' => N0 k k' - ent N k k') -> covariance e' i i <= spread L (fun a => err2 a x) (fun a => err2 a x)).
Proof. exact over_under. Qed.
Print Assumptions C62_over_under.

(** The demonstration history (a measurement, four kinds of sensors, three
    predictions, three clones in a window of two) has errors that live along
    it, for every clone type. *)
Example C62_history_case : forall m, noise_arg demo_noise /\ p_root (demo_par m false) = false /\
  respects (demo0 m false) (map op_of demo_calls) /\ valid m (demo0 m false) (nm_init demo_noise) demo_calls /\
  exists (L : law outcome) err err', chances L /\ initial L err /\
    lives L m (nm_init demo_noise) err (combine demo_calls (decisions (demo0 m false) demo_calls)) err'.
Proof.
  exact (fun m => conj demo_noise_arg (conj eq_refl (conj (demo_respects m false) (conj (demo_valid m) (demo_errors m))))).
Qed.
Example C62_exists_case : forall (ws : list (nat * bool)) c w, In (c, w) (combine demo_calls ws) -> decent c.
Proof. exact demo_decent. Qed.
(** A reading four times as noisy as told. *)
Example C62_misjudged_case : exists e e' (L : law outcome) err1 err2,
  misjudging outcome (demo_par AAll false) demo_noise v0 0 [] demo_row demo_jac demo_res demo_meas_noise e e' L err1 err2 (diagm (fun _ => 4)) /\
  psd (nr demo_jac) (fun k k' => diagm (fun _ => 4) k k' - ent demo_meas_noise k k').
Proof. exact misjudged_demo'. Qed.
