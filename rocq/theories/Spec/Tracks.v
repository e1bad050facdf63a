(** Feature tracks over a history of frames. *)
From Coq Require Import Reals List Arith ZArith Bool Sorted.
From Verif Require Import Base.Res Base.RDec Base.Geom Base.AMap Model.Types Model.MsckfUpdater Model.Trackers
  Spec.Sub Spec.Matches.
Import ListNotations.
Open Scope nat_scope.

(** Where a point was seen, and which feature it is taken for. *)
Definition place (p : FeaturePoint) : nat * R * R := (fp_frame p, kp_x (fp_kp p), kp_y (fp_kp p)).
Definition label (p : FeaturePoint) : nat * Z := (fp_frame p, kp_class (fp_kp p)).
Definition frames (t : list FeaturePoint) : list nat := map fp_frame t.
(** Frame of the last point. *)
Definition back_frame (t : list FeaturePoint) : nat := fp_frame (last t (mkFP 0 0 (mkKP 0 0 0))).
Definition segment {A : Type} (s l : list A) : Prop := exists a b, l = a ++ s ++ b.
Definition one_feature (t : list FeaturePoint) : Prop :=
  t <> [] /\ exists id, (0 <= id)%Z /\ Forall (fun p => kp_class (fp_kp p) = id) t.
Definition ascending (l : list nat) : Prop := StronglySorted lt l.

(** *** Simulated tracker *)
(** A frame of the simulation.  [sf_others] are features that other trackers
    added to the common world since the previous frame. *)
Record sim_frame : Type := mkSF { sf_frame : nat; sf_time : R; sf_view : view; sf_others : list V3 }.
Fixpoint sim_run (s : sim_tracker) (f : features) (l : list sim_frame) :
  res (list (list FeatureTrack) * sim_tracker * features) :=
  match l with
  | [] => OK ([], s, f)
  | x :: l =>
      let* (out, s, f) := GenerateMessage s (GenerateVisibleFeatures (sf_others x) f) (sf_time x) (sf_frame x) (sf_view x) in
      let* (outs, s, f) := sim_run s f l in
      OK (out :: outs, s, f)
  end.
(** Worlds of features the simulation can build. *)
Inductive grown : features -> Prop :=
| grown_empty : grown (mkFeat [] [])
| grown_grid : forall n room f, grown f -> grown (GenerateGridFeatures n room f)
| grown_more : forall l f, grown f -> grown (GenerateVisibleFeatures l f).

(** What the simulated camera sees in each frame. *)
Fixpoint shown (s : sim_tracker) (f : features) (l : list sim_frame) : list (nat * R * list KeyPoint) :=
  match l with
  | [] => []
  | x :: l =>
      let '(kps, f) := GetVisibleKeypoints s (sf_view x) (GenerateVisibleFeatures (sf_others x) f) in
      (sf_frame x, sf_time x, kps) :: shown s f l
  end.
Definition is_feature (k : nat) (p : KeyPoint) : bool := Z.eqb (kp_class p) (Z.of_nat k).
Definition sighting (k : nat) (h : nat * R * list KeyPoint) : option FeaturePoint :=
  match find (is_feature k) (snd h) with
  | Some p => Some (mkFP (fst (fst h)) (snd (fst h)) p)
  | None => None
  end.
(** The uninterrupted runs of a sequence of sightings, none longer than
    [max], and the run that is still open. *)
Fixpoint runs {A : Type} (max : nat) (cur : list A) (l : list (option A)) : list (list A) * list A :=
  match l with
  | [] => ([], cur)
  | None :: l =>
      match cur with
      | [] => runs max [] l
      | _ => let '(o, c) := runs max [] l in (cur :: o, c)
      end
  | Some p :: l =>
      if max <=? length (cur ++ [p]) then let '(o, c) := runs max [] l in ((cur ++ [p]) :: o, c)
      else runs max (cur ++ [p]) l
  end.
Definition about (k : nat) (t : list FeaturePoint) : bool :=
  match t with p :: _ => is_feature k (fp_kp p) | [] => false end.

(** *** Tracker on images *)
(** What OpenCV guarantees about an image that follows the images already
    seen: detected points carry no class; the points with descriptors are
    a subsequence; entry [i] of the matches holds neighbours of point [i];
    the mask has an entry for every match. *)
Definition image_ok (t : image_tracker) (im : image) : Prop :=
  Forall (fun p => kp_class p = (-1)%Z) (im_detected im) /\
  (forall l, sub (im_described im l) l) /\
  (it_prev t <> [] -> current_points im <> [] ->
   neighbours (length (it_prev t)) (length (current_points im)) (im_forward im) /\
   neighbours (length (current_points im)) (length (it_prev t)) (im_backward im) /\
   length (im_forward im) <= length (im_mask im)).
(** History of images: frames with their thinned points, all tracks handed
    over so far, feature counter, tracker. *)
Inductive imaged (min_len max_len : nat) :
  list (nat * list KeyPoint) -> list (list FeaturePoint) -> nat -> image_tracker -> Prop :=
| imaged_new : forall n now, imaged min_len max_len [] [] n (image_tracker_new min_len max_len now)
| imaged_next : forall h out n t frame now after im new n' t', imaged min_len max_len h out n t ->
    Forall (fun x => fst x < frame) h -> image_ok t im ->
    Track t n now after frame im = OK (new, n', t') ->
    imaged min_len max_len (h ++ [(frame, current_points im)]) (out ++ new) n' t'.
