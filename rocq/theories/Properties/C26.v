(** C26: A log file has exactly one header, first. *)
From Coq Require Import Reals List String.
From Verif Require Import Model.DataLogger Spec.Sub Spec.LogFile Proofs.Logging.
Import ListNotations.

(** Any history of calls either hands over no message while logging is
    enabled, or has a first one. *)
Theorem C26_cases : forall os, offered os = [] \/ exists pre o post, os = pre ++ o :: post /\ first_message pre o.
Proof. exact some_first. Qed.
Print Assumptions C26_cases.

Theorem C26_no_file : forall d n r os, offered os = [] -> l_file (lrun (logger_init d n r) os) = None.
Proof. exact file_absent. Qed.
Print Assumptions C26_no_file.

(** The file has the name and header in force at the first message, and then
    messages in the order they were handed over, none of them twice; those of
    unlimited calls are all there. *)
Theorem C26_file : forall d n r pre o post, first_message pre o ->
  exists kept,
    l_file (lrun (logger_init d n r) (pre ++ o :: post)) =
      Some ((dir_of d pre ++ name_of n pre)%string, header_of pre :: kept) /\
    sub kept (offered (pre ++ o :: post)) /\ sub (unlimited (pre ++ o :: post)) kept.
Proof. exact file_present. Qed.
Print Assumptions C26_file.

(** Without rate limited calls: exactly the messages handed over. *)
Theorem C26_exact : forall d n r pre o post, first_message pre o ->
  Forall (fun o => match o with LRate _ _ => False | _ => True end) (pre ++ o :: post) ->
  l_file (lrun (logger_init d n r) (pre ++ o :: post)) =
    Some ((dir_of d pre ++ name_of n pre)%string, header_of pre :: offered (pre ++ o :: post)).
Proof. exact file_exact. Qed.
Print Assumptions C26_exact.

Example C26_history : let pre := [LLog "lost"; LHeader "a"; LHeader "time,x"; LEnable; LName "f.csv"] in
  first_message pre (LLog "1,2") /\ header_of pre = "time,x"%string /\
  offered (pre ++ [LLog "1,2"; LHeader "late"; LLog "3,4"]) = ["1,2"; "3,4"]%string.
Proof. cbn. split; [|auto]. split; [cbn; tauto|]. split; [reflexivity|discriminate]. Qed.
