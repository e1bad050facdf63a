(** C46: Setting the maximum track length and registering a camera. *)
From Coq Require Import Reals List Arith Bool Lia Lra.
From Verif Require Import Base.Res Base.Mat Base.LinAlg Base.Geom Base.AMap
  Model.Types Model.Ekf Model.Ops Spec.Layout Spec.History Spec.Contract
  Proofs.Demo Proofs.CamOrder.
Import ListNotations.
Open Scope nat_scope.

(** The two orders lead to the same filter except for the stored track
    duration, which is one frame period longer when the camera comes second. *)
Theorem C46_order : forall e id st c n a b, c_rate st <> 0%R -> mfind id (s_cam (e_state e)) = None ->
  run e [OSetLen n; ORegCam id st c] = OK a -> run e [ORegCam id st c; OSetLen n] = OK b ->
  let fp := Rmax (e_frame_period e) (1 / c_rate st) in
  e_track_dur a = (fp * INR (n + 1))%R /\ e_track_dur b = (fp * INR n)%R /\
  e_max_len a = n /\ e_max_len b = n /\ a = with_tracks b n (fp * INR (n + 1))%R /\
  ((0 < c_rate st)%R -> a <> b).
Proof. exact camera_order. Qed.
Print Assumptions C46_order.

(** Non-vacuity: both orders are defined on a new filter. *)
Example C46_hypotheses : c_rate demo_cam <> 0%R /\ mfind 2 (s_cam (e_state (demo0 AAll false))) = None /\
  match run (demo0 AAll false) [OSetLen 5; ORegCam 2 demo_cam (demo_cov 6)],
        run (demo0 AAll false) [ORegCam 2 demo_cam (demo_cov 6); OSetLen 5] with
  | OK a, OK b => dim (e_state a) = 24 /\ dim (e_state b) = 24
  | _, _ => False
  end.
Proof.
  split; [cbn; lra|]. split; [reflexivity|]. cbn [run step]. unfold RegisterCamera. cbn [mfind demo0 EKF_init e_state s_cam default_state SetMaxTrackLength with_tracks].
  rewrite !Base.RMat.rdiv_ok by (cbn; lra). vm_compute. split; reflexivity.
Qed.
