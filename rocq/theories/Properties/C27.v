(** C27: Rate limiting bounds the log. *)
From Coq Require Import Reals List String Sorted Lra.
From Verif Require Import Model.DataLogger Spec.LogFile Proofs.Logging.
Import ListNotations.
Open Scope R_scope.

Theorem C27_bound : forall d n h r r0 m0 t0 ms, 0 < r -> t0 <> 0 -> Sorted Rle (t0 :: map snd ms) ->
  INR (rows (lrun (logger_init d n r0) (rate_session d n h r ((m0, t0) :: ms)))) <= r * (last (map snd ms) t0 - t0) + 1.
Proof. exact rate_bound. Qed.
Print Assumptions C27_bound.

(** A message is left out only when the log already holds r (t - t0) rows. *)
Theorem C27_kept : forall d n h r r0 m0 t0 ms m t, 0 < r -> t0 <> 0 -> Sorted Rle (t0 :: map snd ms) ->
  let l := lrun (logger_init d n r0) (rate_session d n h r ((m0, t0) :: ms)) in
  let l' := lrun (logger_init d n r0) (rate_session d n h r ((m0, t0) :: ms ++ [(m, t)])) in
  rows l' = S (rows l) \/ (rows l' = rows l /\ r * (t - t0) <= INR (rows l)).
Proof. exact dropped_only_ahead. Qed.
Print Assumptions C27_kept.

Theorem C27_rate_zero : forall d n h r0 ms,
  rows (lrun (logger_init d n r0) (rate_session d n h 0 ms)) = List.length ms.
Proof. exact rate_zero. Qed.
Print Assumptions C27_rate_zero.

(** Messages at time zero are never limited, whatever the rate ... *)
Theorem C27_time_zero : forall d n h r r0 m k,
  rows (lrun (logger_init d n r0) (rate_session d n h r (repeat (m, 0) k))) = k.
Proof. exact zero_unlimited. Qed.
Print Assumptions C27_time_zero.

(** ... so the bound fails for every rate when the log starts at time zero. *)
Theorem C27_zero_start_refuted : forall d n h r r0, 0 < r -> exists ms, Sorted Rle (map snd ms) /\
  Forall (fun x => snd x = 0) ms /\
  r * (last (map snd ms) 0 - 0) + 1 < INR (rows (lrun (logger_init d n r0) (rate_session d n h r ms))).
Proof. exact zero_start. Qed.
Print Assumptions C27_zero_start_refuted.

Example C27_session : 0 < 10 /\ 1 <> 0 /\ Sorted Rle (1 :: map snd [("b"%string, 1); ("c"%string, 1 + 1)]).
Proof. split; [lra|]. split; [lra|]. cbn. constructor; [constructor; [constructor; [constructor|constructor]|]|]; constructor; lra. Qed.
