(** The severity filter. *)
From Coq Require Import List Arith Bool String Lia.
From Verif Require Import Base.Res Model.DebugLogger Spec.Sub Spec.Severity Proofs.Logging.
Import ListNotations.

Lemma severe_lev : forall a b, as_severe a b <-> lev a <= lev b.
Proof.
  intros a b. split; [intros H; destruct H; cbn; lia|].
  destruct a, b; cbn; intros H; try lia; constructor.
Qed.

Definition line (x : LogLevel * string) : stream * string :=
  (stream_of (fst x), ("[" ++ level_name (fst x) ++ "]: " ++ snd x)%string).

Lemma log_shown : forall c l m, as_severe l (d_level c) ->
  d_out (DebugLog c l m) = d_out c ++ [line (l, m)] /\ d_level (DebugLog c l m) = d_level c.
Proof.
  intros c l m H. apply severe_lev, Nat.leb_le in H. unfold DebugLog. rewrite H. destruct l; split; reflexivity.
Qed.
Lemma log_hidden : forall c l m, ~ as_severe l (d_level c) -> DebugLog c l m = c.
Proof.
  intros c l m H. unfold DebugLog. destruct (lev l <=? lev (d_level c)) eqn:E; [|reflexivity].
  apply Nat.leb_le, severe_lev in E. contradiction.
Qed.

Lemma severe_dec : forall a b, {as_severe a b} + {~ as_severe a b}.
Proof.
  intros a b. destruct (le_dec (lev a) (lev b)) as [H|H]; [left|right]; rewrite severe_lev; auto.
Qed.

Lemma emitted_iff : forall c l m, (d_out (DebugLog c l m) = d_out c ++ [line (l, m)] <-> as_severe l (d_level c)) /\
  (d_out (DebugLog c l m) = d_out c <-> ~ as_severe l (d_level c)).
Proof.
  intros c l m. destruct (severe_dec l (d_level c)) as [H|H].
  - destruct (log_shown c l m H) as [E _]. rewrite E.
    split; [tauto|]. split; [|tauto]. intros K. rewrite <- (app_nil_r (d_out c)) in K at 2.
    apply app_inv_head in K. discriminate K.
  - rewrite (log_hidden c l m H). split; [|tauto]. split; [|tauto]. intros K.
    rewrite <- (app_nil_r (d_out c)) in K at 1. apply app_inv_head in K. discriminate K.
Qed.

(** Everything said at one verbosity. *)
Lemma say_level : forall ms c, d_level (say c ms) = d_level c.
Proof.
  induction ms as [|[l m] ms IH]; intros c; [reflexivity|]. change (say c ((l, m) :: ms)) with (say (DebugLog c l m) ms). rewrite IH.
  destruct (severe_dec l (d_level c)) as [H|H]; [apply (log_shown c l m H)|now rewrite (log_hidden c l m H)].
Qed.

Definition shown (b : LogLevel) (x : LogLevel * string) : bool := if severe_dec (fst x) b then true else false.

Lemma say_out : forall ms c, d_out (say c ms) = d_out c ++ map line (filter (shown (d_level c)) ms).
Proof.
  induction ms as [|[l m] ms IH]; intros c; [cbn; now rewrite app_nil_r|].
  cbn [filter]. change (say c ((l, m) :: ms)) with (say (DebugLog c l m) ms). rewrite IH.
  unfold shown at 2. cbn [fst]. destruct (severe_dec l (d_level c)) as [H|H].
  - destruct (log_shown c l m H) as [E1 E2]. rewrite E1, E2, <- app_assoc. reflexivity.
  - now rewrite (log_hidden c l m H).
Qed.

Lemma sub_map : forall A B (f : A -> B) l m, sub l m -> sub (map f l) (map f m).
Proof. intros A B f l m H. induction H; cbn; [apply sub_nil|apply sub_skip; auto|apply sub_keep; auto]. Qed.

Lemma filter_sub : forall A (f g : A -> bool) l, (forall x, f x = true -> g x = true) -> sub (filter f l) (filter g l).
Proof.
  intros A f g l H. induction l as [|x l IH]; [apply sub_nil|]. cbn.
  destruct (f x) eqn:E.
  - rewrite (H x E). now apply sub_keep.
  - destruct (g x); [now apply sub_skip|exact IH].
Qed.

Lemma severe_trans : forall a b c, as_severe a b -> as_severe b c -> as_severe a c.
Proof. intros a b c. rewrite !severe_lev. lia. Qed.

(** A more verbose console shows everything a less verbose one does. *)
Lemma verbosity : forall ms a b, as_severe a b ->
  sub (d_out (say (mkConsole a []) ms)) (d_out (say (mkConsole b []) ms)).
Proof.
  intros ms a b H. rewrite !say_out. cbn [d_out d_level app]. apply sub_map, filter_sub.
  intros x. unfold shown. destruct (severe_dec (fst x) a) as [K|K]; [|discriminate].
  intros _. destruct (severe_dec (fst x) b) as [K2|K2]; [reflexivity|]. exfalso. apply K2. now apply severe_trans with a.
Qed.

Lemma errors_only : forall ms c s t, In (s, t) (d_out (say c ms)) -> In (s, t) (d_out c) \/
  exists l m, In (l, m) ms /\ as_severe l (d_level c) /\ (s = Cerr <-> as_severe l WARN) /\ t = snd (line (l, m)).
Proof.
  intros ms c s t H. rewrite say_out in H. apply in_app_or in H. destruct H as [H|H]; [auto|right].
  apply in_map_iff in H. destruct H as [[l m] [E H]]. apply filter_In in H. destruct H as [H1 H2].
  exists l, m. split; [exact H1|]. unfold shown in H2. cbn [fst] in H2.
  destruct (severe_dec l (d_level c)); [|discriminate]. split; [assumption|].
  unfold line in E. cbn [fst snd] in E. injection E as <- <-. split; [|reflexivity].
  rewrite severe_lev. destruct l; cbn; split; intros K; try discriminate K; try lia; reflexivity.
Qed.

(** The announcement of a new level ignores the filter. *)
Lemma announcement : forall c l, d_level (SetLogLevel c l) = l /\
  (d_out (SetLogLevel c l) = d_out c <-> d_level c = DEBUG /\ l = DEBUG).
Proof.
  intros [d o] l. split; [reflexivity|]. unfold SetLogLevel. cbn [d_level d_out].
  destruct ((lev d <=? lev INFO) || (lev l <=? lev INFO)) eqn:E; cbn [d_out put].
  - split.
    + intros K. rewrite <- (app_nil_r o) in K at 2. apply app_inv_head in K. discriminate K.
    + intros [-> ->]. discriminate E.
  - split; [|reflexivity]. intros _. apply orb_false_iff in E. destruct E as [E1 E2].
    destruct d; try discriminate E1. destruct l; try discriminate E2. auto.
Qed.

Lemma level_range : forall c n, (exists c', SetLogLevel_u c n = OK c') <-> n <= 4.
Proof.
  intros c n. unfold SetLogLevel_u. do 5 (destruct n as [|n]; [cbn; split; [lia|eauto]|]).
  cbn. split; [intros [c' H]; discriminate H|lia].
Qed.
