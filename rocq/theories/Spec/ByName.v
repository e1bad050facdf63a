(** A filter without indices: it keeps one covariance for every pair of named
    scalar quantities, never moves anything, and gives every clone a name it
    keeps for life (camera and running number).  It mentions nothing of the
    matrices, sizes and index members of the code. *)
From Coq Require Import Reals List Arith Bool.
From Verif Require Import Base.Res Base.Mat Base.RDec Base.RSum Base.LinAlg Base.Inverse Base.Geom Base.AMap
  Model.Types Model.Ekf Model.Ops Spec.Named.
Import ListNotations.
Open Scope nat_scope.

(** One scalar quantity.  [NClone cam n k]: scalar [k] of the [n]-th clone
    ever made for camera [cam]. *)
Inductive name : Type :=
| NBody (k : nat)
| NImuExt (id k : nat)
| NImuInt (id k : nat)
| NGps (id k : nat)
| NCam (id k : nat)
| NFid (id k : nat)
| NClone (cam n k : nat).

Definition name_dec : forall x y : name, {x = y} + {x <> y}.
Proof. decide equality; apply Nat.eq_dec. Defined.

Record byname : Type := mkByName {
  n_names : list name;              (** what is estimated *)
  n_cov : name -> name -> R;        (** the covariance of two quantities *)
  n_rate : name -> R;               (** noise rates in force *)
  n_body : nat -> R;                (** body noise set last *)
  n_stab : name -> R;               (** stability given at registration *)
  n_time : R;
  n_started : bool;
  n_gravity : bool;
  n_max : nat;                      (** maximum window length *)
  n_primary : nat;
  n_imus : list nat;                (** ids known *)
  n_gpss : list nat;
  n_cams : list nat;
  n_fids : list nat;
  n_first : nat -> nat;             (** oldest clone kept, per camera *)
  n_next : nat -> nat }.            (** number of clones made, per camera *)

Definition ncopies (n : nat) (f : nat -> name) : list name := map f (seq 0 n).

Definition nm_init (q : mat R) : byname :=
  mkByName (ncopies 18 NBody) (fun x y => if name_dec x y then (1 / 100)%R else 0%R) (fun _ => 0%R)
    (fun k => ent q k 0) (fun _ => 0%R) 0%R false false 20 0 [] [] [] [] (fun _ => 0) (fun _ => 0).

(** *** Noise *)
Definition n_own (body : nat -> R) (stab : name -> R) (x : name) : R :=
  match x with NBody k => body k | NClone _ _ _ => 0%R | _ => stab x end.
Definition nm_refresh (a : byname) : byname :=
  mkByName (n_names a) (n_cov a) (n_own (n_body a) (n_stab a)) (n_body a) (n_stab a) (n_time a) (n_started a)
    (n_gravity a) (n_max a) (n_primary a) (n_imus a) (n_gpss a) (n_cams a) (n_fids a) (n_first a) (n_next a).

(** *** Registration *)
Fixpoint position (x : name) (l : list name) : option nat :=
  match l with
  | [] => None
  | y :: t => if name_dec x y then Some 0 else match position x t with Some k => Some (S k) | None => None end
  end.
Definition nm_enrol (a : byname) (l : list name) (c : mat R) (stab : name -> R) : byname :=
  mkByName (l ++ n_names a)
    (fun x y => match position x l, position y l with
                | Some i, Some j => ent c i j
                | None, None => n_cov a x y
                | _, _ => 0%R
                end)
    (n_rate a) (n_body a)
    (fun x => match position x l with Some _ => stab x | None => n_stab a x end)
    (n_time a) (n_started a) (n_gravity a) (n_max a) (n_primary a) (n_imus a) (n_gpss a) (n_cams a) (n_fids a)
    (n_first a) (n_next a).
Definition with_ids (a : byname) (imus gpss cams fids : list nat) (primary : nat) : byname :=
  mkByName (n_names a) (n_cov a) (n_rate a) (n_body a) (n_stab a) (n_time a) (n_started a)
    (n_gravity a) (n_max a) primary imus gpss cams fids (n_first a) (n_next a).

Definition imu_names (id : nat) (st : ImuState) : list name :=
  (if i_ext st then ncopies 6 (NImuExt id) else []) ++ (if i_int st then ncopies 6 (NImuInt id) else []).
Definition gps_names (id : nat) (st : GpsState) : list name := if g_ext st then ncopies 3 (NGps id) else [].
Definition cam_names (id : nat) (st : CamState) : list name := if c_ext st then ncopies 6 (NCam id) else [].
Definition fid_names (id : nat) (st : FidState) : list name := if f_ext st then ncopies 6 (NFid id) else [].

Definition imu_stab (st : ImuState) (x : name) : R :=
  match x with
  | NImuExt _ k => if k <? 3 then i_pos_stab st else i_ang_stab st
  | NImuInt _ k => if k <? 3 then i_acc_stab st else i_omg_stab st
  | _ => 0%R
  end.
Definition gps_stab (st : GpsState) (_ : name) : R := g_pos_stab st.
Definition cam_stab (st : CamState) (x : name) : R :=
  match x with NCam _ k => if k <? 3 then c_pos_stab st else c_ang_stab st | _ => 0%R end.
Definition fid_stab (st : FidState) (x : name) : R :=
  match x with NFid _ k => if k <? 3 then f_pos_stab st else f_ang_stab st | _ => 0%R end.

Definition known (id : nat) (l : list nat) : bool := existsb (Nat.eqb id) l.
Definition nm_imu (a : byname) (id : nat) (st : ImuState) (c : mat R) : byname :=
  if known id (n_imus a) then a
  else nm_refresh (with_ids (nm_enrol a (imu_names id st) c (imu_stab st))
         (id :: n_imus a) (n_gpss a) (n_cams a) (n_fids a) (n_primary a)).
Definition nm_gps (a : byname) (id : nat) (st : GpsState) (c : mat R) : byname :=
  if known id (n_gpss a) then a
  else nm_refresh (with_ids (nm_enrol a (gps_names id st) c (gps_stab st))
         (n_imus a) (id :: n_gpss a) (n_cams a) (n_fids a) (n_primary a)).
(** The first camera with a number other than 0 is the primary one. *)
Definition nm_cam (a : byname) (id : nat) (st : CamState) (c : mat R) : byname :=
  if known id (n_cams a) then a
  else nm_refresh (with_ids (nm_enrol a (cam_names id st) c (cam_stab st))
         (n_imus a) (n_gpss a) (id :: n_cams a) (n_fids a) (if n_primary a =? 0 then id else n_primary a)).
Definition nm_fid (a : byname) (id : nat) (st : FidState) (c : mat R) : byname :=
  if known id (n_fids a) then a
  else nm_refresh (with_ids (nm_enrol a (fid_names id st) c (fid_stab st))
         (n_imus a) (n_gpss a) (n_cams a) (id :: n_fids a) (n_primary a)).
(** Asking for a sensor makes its number known. *)
Definition learn (id : nat) (l : list nat) : list nat := if known id l then l else id :: l.

(** *** Clones *)
Definition nm_windows (a : byname) (names : list name) (cov : name -> name -> R) (first next : nat -> nat) : byname :=
  mkByName names cov (n_rate a) (n_body a) (n_stab a) (n_time a) (n_started a)
    (n_gravity a) (n_max a) (n_primary a) (n_imus a) (n_gpss a) (n_cams a) (n_fids a) first next.
Definition bump (f : nat -> nat) (cam d : nat) (k : nat) : nat := if k =? cam then f k + d else f k.

(** The [d] oldest clones of a camera are forgotten. *)
Definition recent (cam first : nat) (x : name) : bool :=
  match x with NClone c n _ => negb (c =? cam) || (first <=? n) | _ => true end.
Definition nm_drop (a : byname) (cam d : nat) : byname :=
  nm_windows a (filter (recent cam (n_first a cam + d)) (n_names a)) (n_cov a) (bump (n_first a) cam d) (n_next a).

(** A new clone copies position and orientation of the body. *)
Definition pose_of (k : nat) : name := if k <? 3 then NBody k else NBody (k + 6).
Definition origin (cam n : nat) (x : name) : name :=
  match x with NClone c m k => if (c =? cam) && (m =? n) then pose_of k else x | _ => x end.
Definition nm_clone (a : byname) (cam : nat) : byname :=
  let n := n_next a cam in
  nm_windows a (ncopies 6 (NClone cam n) ++ n_names a)
    (fun x y => n_cov a (origin cam n x) (origin cam n y)) (n_first a) (bump (n_next a) cam 1).

Definition nm_frame (mode : AugType) (a : byname) (cam : nat) : byname :=
  if (match mode with AAll => true | APrimary => cam =? n_primary a | _ => false end)
  then let a := if n_max a <=? n_next a cam - n_first a cam then nm_drop a cam 1 else a in
       nm_refresh (nm_clone a cam)
  else a.

(** Clones by time: [d] old ones go, and possibly one new one comes. *)
Definition nm_settle (mode : AugType) (w : nat * bool) (a : byname) : byname :=
  match mode with
  | ATime | AError =>
      let a := if 0 <? fst w then nm_refresh (nm_drop a 0 (fst w)) else a in
      if snd w then nm_refresh (nm_clone a 0) else a
  | _ => a
  end.

(** *** Prediction *)
Definition nm_clock (a : byname) (t : R) (started : bool) : byname :=
  mkByName (n_names a) (n_cov a) (n_rate a) (n_body a) (n_stab a) t started
    (n_gravity a) (n_max a) (n_primary a) (n_imus a) (n_gpss a) (n_cams a) (n_fids a) (n_first a) (n_next a).
(** Position moves with velocity. *)
Definition pushed (dt : R) (f : name -> R) (x : name) : R :=
  match x with NBody k => if k <? 3 then (f x + dt * f (NBody (k + 3)))%R else f x | _ => f x end.
Definition diffused (dt : R) (a : byname) (x y : name) : R :=
  (n_cov a x y + if name_dec x y then dt * n_rate a x else 0)%R.
Definition nm_predict (a : byname) (t : R) : byname :=
  if Rltb t (n_time a) then a
  else let dt := (t - n_time a)%R in
       nm_clock
         (if n_gravity a
          then nm_windows a (n_names a)
                 (fun x y => pushed dt (fun x' => pushed dt (fun y' => diffused dt a x' y') y) x)
                 (n_first a) (n_next a)
          else a) t (n_started a).

(** *** Measurement: row [i] of the Jacobian, by name *)
Definition over (l : list name) (f : name -> R) : R := fold_right (fun x s => (f x + s)%R) 0%R l.
Definition nm_measure (a : byname) (m : nat) (H : nat -> name -> R) (Rn : mat R) : byname :=
  let L := n_names a in
  let PHt x i := over L (fun y => (n_cov a x y * H i y)%R) in
  let HP i y := over L (fun x => (H i x * n_cov a x y)%R) in
  let S i j := (over L (fun x => (H i x * PHt x j)%R) + ent Rn i j)%R in
  nm_windows a L
    (fun x y => (n_cov a x y - rsum m (fun i => rsum m (fun j => (PHt x i * finv m S i j * HP j y)%R)))%R)
    (n_first a) (n_next a).

(** *** Calls *)
Inductive call : Type :=
| Do (o : op)
| Measure (H : nat -> name -> R) (jac residual noise : mat R).
Definition op_of (c : call) : op :=
  match c with Do o => o | Measure _ jac r n => OKalman jac r n end.

(** [w] is the decision about clones, used where clones are made by time. *)
Definition nm_step (mode : AugType) (w : nat * bool) (a : byname) (c : call) : byname :=
  match c with
  | Measure H jac _ noise => nm_measure a (nr jac) H noise
  | Do o =>
    match o with
    | ORegImu id st c => nm_imu a id st c
    | ORegGps id st c => nm_gps a id st c
    | ORegCam id st c => nm_cam a id st c
    | ORegFid st c => nm_fid a (f_id st) st c
    | OPredict t => if Rltb t (n_time a) then a else nm_settle mode w (nm_predict a t)
    | OAugment => nm_settle mode w a
    | OFrame cam _ => nm_frame mode a cam
    | ORefresh => nm_refresh a
    | OGetImu id => with_ids a (learn id (n_imus a)) (n_gpss a) (n_cams a) (n_fids a) (n_primary a)
    | OGetGps id => with_ids a (n_imus a) (learn id (n_gpss a)) (n_cams a) (n_fids a) (n_primary a)
    | OGetCam id => with_ids a (n_imus a) (n_gpss a) (learn id (n_cams a)) (n_fids a) (n_primary a)
    | OInit t _ => nm_clock a t true
    | OLocalTime _ => if n_started a then a else nm_clock a 0%R true
    | OSetNoise q =>
        mkByName (n_names a) (n_cov a) (n_rate a) (fun k => ent q k 0) (n_stab a) (n_time a) (n_started a)
          (n_gravity a) (n_max a) (n_primary a) (n_imus a) (n_gpss a) (n_cams a) (n_fids a) (n_first a) (n_next a)
    | OSetLen n =>
        mkByName (n_names a) (n_cov a) (n_rate a) (n_body a) (n_stab a) (n_time a) (n_started a)
          (n_gravity a) n (n_primary a) (n_imus a) (n_gpss a) (n_cams a) (n_fids a) (n_first a) (n_next a)
    | OInitGravity =>
        mkByName (n_names a) (n_cov a) (n_rate a) (n_body a) (n_stab a) (n_time a) (n_started a)
          true (n_max a) (n_primary a) (n_imus a) (n_gpss a) (n_cams a) (n_fids a) (n_first a) (n_next a)
    | _ => a
    end
  end.
Definition nm_run (mode : AugType) (a : byname) (l : list (call * (nat * bool))) : byname :=
  fold_left (fun a cw => nm_step mode (snd cw) a (fst cw)) l a.

(** The decision the code took in one call, and in a sequence of calls. *)
Definition taken (e e' : ekf) : nat * bool :=
  let new := e_frame_recv e && negb (e_frame_recv e') in
  (length (aug_at e 0) + (if new then 1 else 0) - length (aug_at e' 0), new).
Fixpoint decisions (e : ekf) (l : list call) : list (nat * bool) :=
  match l with
  | [] => []
  | c :: t => match step e (op_of c) with OK e' => taken e e' :: decisions e' t | UB => [] end
  end.

(** *** The order a caller has to respect *)
Definition above (id : nat) (l : list nat) : Prop := In id l \/ forall k, In k l -> k < id.
Definition in_order (a : byname) (c : call) : Prop :=
  match c with
  | Do (ORegImu id _ _) => above id (n_imus a)
  | Do (ORegGps id _ _) => above id (n_gpss a)
  | Do (ORegCam id _ _) => above id (n_cams a)
  | Do (ORegFid st _) => above (f_id st) (n_fids a) /\ (In (f_id st) (n_fids a) \/ forall k, n_first a k = n_next a k)
  | Do (OKalman _ _ _) => False
  | _ => True
  end.

(** *** Looking a quantity up in the filter of the code: the index the
    quantity is told to use *)
Definition told (e : ekf) (first : nat -> nat) (x : name) : option nat :=
  let s := e_state e in
  match x with
  | NBody k => Some (b_index (s_body s) + k)
  | NImuExt id k => option_map (fun v => i_index_ext v + k) (mfind id (s_imu s))
  | NImuInt id k => option_map (fun v => i_index_int v + k) (mfind id (s_imu s))
  | NGps id k => option_map (fun v => g_index v + k) (mfind id (s_gps s))
  | NCam id k => option_map (fun v => c_index v + k) (mfind id (s_cam s))
  | NFid id k => option_map (fun v => f_index v + k) (mfind id (s_fid s))
  | NClone cam n k => option_map (fun v => a_index v + k) (nth_error (aug_at e cam) (n - first cam))
  end.

(** The two filters agree: every quantity has an index inside the matrix, no
    two the same, they fill it, and the matrix holds the covariances. *)
Record agree (e : ekf) (a : byname) : Prop := mkAgree {
  ag_index : forall x, In x (n_names a) -> exists i, told e (n_first a) x = Some i /\ i < e_size e;
  ag_apart : forall x y i, In x (n_names a) -> In y (n_names a) ->
    told e (n_first a) x = Some i -> told e (n_first a) y = Some i -> x = y;
  ag_fill : forall i, i < e_size e -> exists x, In x (n_names a) /\ told e (n_first a) x = Some i;
  ag_cov : forall x y i j, In x (n_names a) -> In y (n_names a) ->
    told e (n_first a) x = Some i -> told e (n_first a) y = Some j -> covariance e i j = n_cov a x y }.

(** The Jacobian has its columns where the quantities are. *)
Definition columns (e : ekf) (a : byname) (jac : mat R) (H : nat -> name -> R) : Prop :=
  forall i x j, i < nr jac -> In x (n_names a) -> told e (n_first a) x = Some j -> ent jac i j = H i x.

Fixpoint valid (mode : AugType) (e : ekf) (a : byname) (l : list call) : Prop :=
  match l with
  | [] => True
  | c :: t =>
      in_order a c /\
      match c with Measure H jac _ _ => columns e a jac H | _ => True end /\
      forall e', step e (op_of c) = OK e' -> valid mode e' (nm_step mode (taken e e') a c) t
  end.
