(** C28: Severity filter. *)
From Coq Require Import List String.
From Verif Require Import Base.Res Model.DebugLogger Spec.Sub Spec.Severity Proofs.Debug.
Import ListNotations.

Theorem C28_emitted : forall c l m,
  (d_out (DebugLog c l m) = d_out c ++ [(stream_of l, ("[" ++ level_name l ++ "]: " ++ m)%string)] <-> as_severe l (d_level c)) /\
  (d_out (DebugLog c l m) = d_out c <-> ~ as_severe l (d_level c)).
Proof. exact emitted_iff. Qed.
Print Assumptions C28_emitted.

Theorem C28_verbosity : forall ms a b, as_severe a b ->
  sub (d_out (say (mkConsole a []) ms)) (d_out (say (mkConsole b []) ms)).
Proof. exact verbosity. Qed.
Print Assumptions C28_verbosity.

Theorem C28_streams : forall ms c s t, In (s, t) (d_out (say c ms)) -> In (s, t) (d_out c) \/
  exists l m, In (l, m) ms /\ as_severe l (d_level c) /\ (s = Cerr <-> as_severe l WARN) /\
    t = ("[" ++ level_name l ++ "]: " ++ m)%string.
Proof. exact errors_only. Qed.
Print Assumptions C28_streams.

(** The announcement of a new level bypasses the filter: it is suppressed
    only when the level stays at the most verbose one. *)
Theorem C28_announcement : forall c l, d_level (SetLogLevel c l) = l /\
  (d_out (SetLogLevel c l) = d_out c <-> d_level c = DEBUG /\ l = DEBUG).
Proof. exact announcement. Qed.
Print Assumptions C28_announcement.

Theorem C28_integer_levels : forall c n, (exists c', SetLogLevel_u c n = OK c') <-> n <= 4.
Proof. exact level_range. Qed.
Print Assumptions C28_integer_levels.

Example C28_case : d_out (say (mkConsole WARN []) [(INFO, "a"); (ERROR, "b"); (WARN, "c")]%string) =
  [(Cerr, "[ERROR]: b"); (Cerr, "[WARN ]: c")]%string /\ as_severe WARN INFO.
Proof. split; [reflexivity|constructor]. Qed.
