(** Concrete cases for the theorems about what a measurement does. *)
From Coq Require Import Reals List Arith Bool Lia Lra.
From Verif Require Import Base.Res Base.Mat Base.RSum Base.LinAlg Base.Geom Base.AMap Base.RMat
  Model.TypeHelper Model.Types Model.Ekf Model.Updater Model.Ops
  Spec.Layout Spec.History Spec.Contract Spec.Named Spec.Callback
  Proofs.Demo Proofs.DemoFilter Proofs.Invariant Proofs.RegRefute Proofs.Named Proofs.BlockDiag Proofs.ImuCallback Proofs.Register.
Import ListNotations.
Open Scope nat_scope.

(** One measured coordinate, and the same with a row that says nothing. *)
Definition idle_jac : mat R := mkmat 2 18 (fun i j => if Nat.eqb i 0 && Nat.eqb j 0 then 1%R else 0%R).
Definition idle_res : mat R := mkmat 2 1 (fun i _ => if Nat.eqb i 0 then (1 / 2)%R else 7%R).
Lemma idle_case : forall a root, reachable (demo0 a root) /\
  meas_arg root (e_size (demo0 a root)) demo_jac demo_res demo_meas_noise /\
  eqm 18 18 (gram 1 (ent demo_jac)) (gram 2 (ent idle_jac)) /\
  eqm 18 1 (mm 1 (tr (ent demo_jac)) (ent demo_res)) (mm 2 (tr (ent idle_jac)) (ent idle_res)).
Proof.
  intros a root. split; [apply demo0_reachable|]. split; [apply demo_meas|].
  split; intros i j Hi Hj; unfold gram, mm, tr, demo_jac, idle_jac, demo_res, idle_res; cbn [ent rsum Nat.eqb andb];
    destruct (Nat.eqb i 0); try destruct (Nat.eqb j 0); cbn; field.
Qed.

Lemma placed_gen : forall e, reachable e -> reachable (SetGpsReference e v0 0).
Proof. intros e R. eapply (reachable_step e (OSetGps v0 0)); [exact R|exact I|reflexivity]. Qed.
Lemma placed_case : exists e, reachable e /\ p_fej (e_par e) = false /\ has_gps e 3 true /\ e_lla_init e = true /\
  noise_ok (p_root (e_par e)) 3 (midm 3 3).
Proof.
  exists (SetGpsReference (demo_e AAll false) v0 0). split; [apply placed_gen, demo_e_reachable|].
  split; [vm_compute; reflexivity|]. split; [eexists; split; vm_compute; reflexivity|]. split; [reflexivity|].
  apply (diag_noise_ok _ _ _ (fun _ => 1%R)); [reflexivity|reflexivity|intros; lra|]. intros a b Ha Hb. reflexivity.
Qed.

Lemma two_gen : forall e e', reachable e -> (mfind 7 (s_imu (e_state e)) = None -> True) -> RegisterIMU e 7 demo_imu (demo_cov 12) = OK e' -> reachable e'.
Proof.
  intros e e' R _ E. eapply (reachable_step e (ORegImu 7 demo_imu (demo_cov 12))); [exact R| |exact E].
  apply demo_imu_contract. intros r. apply demo_cov_arg.
Qed.
Definition two : ekf := match RegisterIMU (demo_e AAll false) 7 demo_imu (demo_cov 12) with OK e => e | UB => demo_e AAll false end.
Lemma two_imus : exists e, reachable e /\ length (s_imu (e_state e)) = 2 /\ has_imu e 1 true true /\ has_imu e 7 true true.
Proof.
  exists two. split.
  - unfold two. destruct (RegisterIMU (demo_e AAll false) 7 demo_imu (demo_cov 12)) as [e|] eqn:E; [|apply demo_e_reachable].
    apply (two_gen (demo_e AAll false)); auto. apply demo_e_reachable.
  - split; [vm_compute; reflexivity|]. split; (eexists; split; [vm_compute; reflexivity|split; reflexivity]).
Qed.
