(** Specification of the error-state vector: which scalar lives at which
    position, written without reference to the index bookkeeping of the
    code.

    Order: body, IMUs by id (extrinsic then intrinsic), GPS antennas by id,
    cameras by id, fiducials by id, clones by key and age. *)
From Coq Require Import Reals List Arith.
From Verif Require Import Base.AMap Model.Types.
Import ListNotations.
Open Scope nat_scope.

(** The name of one scalar error state. *)
Inductive label : Type :=
| LBody (k : nat)
| LImuExt (id k : nat)
| LImuInt (id k : nat)
| LGps (id k : nat)
| LCam (id k : nat)
| LFid (id k : nat)
| LAug (key pos k : nat).

Definition six (f : nat -> label) : list label := map f (seq 0 6).
Definition three (f : nat -> label) : list label := map f (seq 0 3).

Definition imu_labels (x : nat * ImuState) : list label :=
  (if i_ext (snd x) then six (LImuExt (fst x)) else []) ++
  (if i_int (snd x) then six (LImuInt (fst x)) else []).
Definition gps_labels (x : nat * GpsState) : list label :=
  if g_ext (snd x) then three (LGps (fst x)) else [].
Definition cam_labels (x : nat * CamState) : list label :=
  if c_ext (snd x) then six (LCam (fst x)) else [].
Definition fid_labels (x : nat * FidState) : list label :=
  if f_ext (snd x) then six (LFid (fst x)) else [].
Definition aug_labels (x : nat * list AugState) : list label :=
  flat_map (fun pos => six (LAug (fst x) pos)) (seq 0 (length (snd x))).

Definition layout (s : State) : list label :=
  map LBody (seq 0 18) ++ flat_map imu_labels (s_imu s) ++ flat_map gps_labels (s_gps s) ++
  flat_map cam_labels (s_cam s) ++ flat_map fid_labels (s_fid s) ++ flat_map aug_labels (s_aug s).

(** Number of error states. *)
Definition dim (s : State) : nat := length (layout s).

(** The index members of every registered sensor and every clone point at its
    first scalar, and its further scalars follow consecutively. *)
Definition index_fields_correct (s : State) : Prop :=
  b_index (s_body s) = 0 /\
  (forall id x, In (id, x) (s_imu s) ->
     (i_ext x = true -> forall k, k < 6 -> nth_error (layout s) (i_index_ext x + k) = Some (LImuExt id k)) /\
     (i_int x = true -> forall k, k < 6 -> nth_error (layout s) (i_index_int x + k) = Some (LImuInt id k)) /\
     (i_ext x = true -> i_index x = i_index_ext x) /\
     (i_ext x = false -> i_int x = true -> i_index x = i_index_int x)) /\
  (forall id x, In (id, x) (s_gps s) -> g_ext x = true ->
     forall k, k < 3 -> nth_error (layout s) (g_index x + k) = Some (LGps id k)) /\
  (forall id x, In (id, x) (s_cam s) -> c_ext x = true ->
     forall k, k < 6 -> nth_error (layout s) (c_index x + k) = Some (LCam id k)) /\
  (forall id x, In (id, x) (s_fid s) -> f_ext x = true ->
     forall k, k < 6 -> nth_error (layout s) (f_index x + k) = Some (LFid id k)) /\
  (forall key l pos a, In (key, l) (s_aug s) -> nth_error l pos = Some a ->
     forall k, k < 6 -> nth_error (layout s) (a_index a + k) = Some (LAug key pos k)).

(** 18 plus the sizes of everything that is estimated. *)
Definition count_states (s : State) : nat :=
  18 + 6 * length (filter (fun x => i_ext (snd x)) (s_imu s))
     + 6 * length (filter (fun x => i_int (snd x)) (s_imu s))
     + 3 * length (filter (fun x => g_ext (snd x)) (s_gps s))
     + 6 * length (filter (fun x => c_ext (snd x)) (s_cam s))
     + 6 * length (filter (fun x => f_ext (snd x)) (s_fid s))
     + 6 * length (flat_map snd (s_aug s)).
