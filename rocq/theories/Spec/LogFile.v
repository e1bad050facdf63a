(** What a log file should contain, in terms of the calls made. *)
From Coq Require Import Reals List String Bool.
From Verif Require Import Model.DataLogger.
Import ListNotations.

(** The message of a call. *)
Definition message_of (o : lop) : list string :=
  match o with LLog m | LRate m _ => [m] | _ => [] end.
Definition plain_of (o : lop) : list string := match o with LLog m => [m] | _ => [] end.

(** The calls after logging was first enabled. *)
Fixpoint enabled (os : list lop) : list lop :=
  match os with [] => [] | LEnable :: t => t | _ :: t => enabled t end.

(** The messages handed over while logging is enabled; those of unlimited calls. *)
Definition offered (os : list lop) : list string := flat_map message_of (enabled os).
Definition unlimited (os : list lop) : list string := flat_map plain_of (enabled os).

(** The settings in force after some calls. *)
Definition header_of (os : list lop) : string :=
  fold_left (fun h o => match o with LHeader h' => h' | _ => h end) os ""%string.
Definition dir_of (d : string) (os : list lop) : string :=
  fold_left (fun h o => match o with LDir h' => h' | _ => h end) os d.
Definition name_of (n : string) (os : list lop) : string :=
  fold_left (fun h o => match o with LName h' => h' | _ => h end) os n.

(** [o] is the first message handed over while logging is enabled, after [pre]. *)
Definition first_message (pre : list lop) (o : lop) : Prop :=
  In LEnable pre /\ offered pre = [] /\ message_of o <> [].

(** The lines of the file after the header. *)
Definition rows (l : logger) : nat :=
  match l_file l with Some (_, _ :: t) => List.length t | _ => 0 end.

(** A logger with rate [r], logging enabled, given timed messages. *)
Definition rate_session (dir name header : string) (r : R) (ms : list (string * R)) : list lop :=
  LHeader header :: LEnable :: LSetRate r :: map (fun x => LRate (fst x) (snd x)) ms.
