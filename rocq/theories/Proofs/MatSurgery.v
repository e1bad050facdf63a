(** Elementwise characterisation of [InsertInMatrix] / [RemoveFromMatrix]. *)
From Coq Require Import List Arith Lia Bool.
From Verif Require Import Base.Res Base.Mat Model.MathHelperMat.
From Verif Require Export Spec.Surgery.

(** Execute a chain of checked operations whose side conditions are linear. *)
Ltac mstep :=
  first
  [ rewrite usub_ok by (cbn [nr nc mconst]; lia)
  | rewrite block_ok by (cbn [nr nc mconst]; lia)
  | rewrite set_block_ok by (cbn [nr nc mconst]; lia) ];
  cbn [bind nr nc ent mconst].
Ltac mrun := repeat mstep.

Lemma unshift_lt : forall pos len i, i < pos -> unshift pos len i = Some i.
Proof. intros. unfold unshift. apply Nat.ltb_lt in H. now rewrite H. Qed.

Lemma unshift_mid : forall pos len i, pos <= i < pos + len -> unshift pos len i = None.
Proof.
  intros. unfold unshift. destruct (i <? pos) eqn:E; [apply Nat.ltb_lt in E; lia|].
  destruct (i <? pos + len) eqn:E2; [auto|apply Nat.ltb_ge in E2; lia].
Qed.

Lemma unshift_ge : forall pos len i, pos + len <= i -> unshift pos len i = Some (i - len).
Proof.
  intros. unfold unshift. destruct (i <? pos) eqn:E; [apply Nat.ltb_lt in E; lia|].
  destruct (i <? pos + len) eqn:E2; [apply Nat.ltb_lt in E2; lia|auto].
Qed.

Lemma skip_lt : forall pos len i, i < pos -> skip pos len i = i.
Proof. intros. unfold skip. apply Nat.ltb_lt in H. now rewrite H. Qed.

Lemma skip_ge : forall pos len i, pos <= i -> skip pos len i = i + len.
Proof. intros. unfold skip. apply Nat.ltb_ge in H. now rewrite H. Qed.

Lemma unshift_skip : forall pos len i, unshift pos len (skip pos len i) = Some i.
Proof.
  intros. destruct (Nat.lt_ge_cases i pos).
  - rewrite skip_lt by auto. now apply unshift_lt.
  - rewrite skip_ge by auto. rewrite unshift_ge by lia. f_equal. lia.
Qed.

Lemma Insert_spec : forall T (z : T) (sub m : mat T) row col,
  row <= nr m -> col <= nc m ->
  exists out, InsertInMatrix z sub m row col = OK out /\
    nr out = nr m + nr sub /\ nc out = nc m + nc sub /\
    forall i j, i < nr out -> j < nc out -> ent out i j = insert_entry z sub m row col i j.
Proof.
  intros T z sub m row col Hr Hc. unfold InsertInMatrix. mrun.
  eexists. split; [reflexivity|]. cbn [nr nc]. split; [reflexivity|]. split; [reflexivity|].
  intros i j Hi Hj. cbn [ent]. unfold insert_entry.
  assert (Ci : i < row \/ row <= i < row + nr sub \/ row + nr sub <= i) by lia.
  assert (Cj : j < col \/ col <= j < col + nc sub \/ col + nc sub <= j) by lia.
  destruct Ci as [Ci|[Ci|Ci]]; destruct Cj as [Cj|[Cj|Cj]];
    repeat first
      [ rewrite unshift_lt by lia | rewrite unshift_mid by lia | rewrite unshift_ge by lia ];
    dranges; try reflexivity; f_equal; lia.
Qed.

Lemma Insert_ub : forall T (z : T) (sub m : mat T) row col,
  nr m < row \/ nc m < col -> InsertInMatrix z sub m row col = UB.
Proof.
  intros T z sub m row col H. unfold InsertInMatrix.
  destruct (usub (nc m) col) eqn:E1; cbn [bind]; [|reflexivity].
  destruct (usub (nr m) row) eqn:E2; cbn [bind]; [|reflexivity].
  apply usub_inv in E1. apply usub_inv in E2. lia.
Qed.

Lemma Remove_spec : forall T (z : T) (m : mat T) row col size,
  row + size <= nr m -> col + size <= nc m ->
  exists out, RemoveFromMatrix z m row col size = OK out /\
    nr out = nr m - size /\ nc out = nc m - size /\
    forall i j, i < nr out -> j < nc out ->
      ent out i j = ent m (skip row size i) (skip col size j).
Proof.
  intros T z m row col size Hr Hc. unfold RemoveFromMatrix. mrun.
  eexists. split; [reflexivity|]. cbn [nr nc]. split; [reflexivity|]. split; [reflexivity|].
  intros i j Hi Hj. cbn [ent].
  assert (Ci : i < row \/ row <= i) by lia.
  assert (Cj : j < col \/ col <= j) by lia.
  destruct Ci as [Ci|Ci]; destruct Cj as [Cj|Cj];
    repeat first [ rewrite skip_lt by lia | rewrite skip_ge by lia ];
    dranges; try reflexivity; f_equal; lia.
Qed.

Lemma Remove_ub : forall T (z : T) (m : mat T) row col size,
  nr m < row + size \/ nc m < col + size -> RemoveFromMatrix z m row col size = UB.
Proof.
  intros T z m row col size H. unfold RemoveFromMatrix.
  destruct (RemoveFromMatrix z m row col size) eqn:E; [|exact E].
  exfalso. unfold RemoveFromMatrix in E.
  repeat (binv E; rename Hc into E).
  repeat match goal with
  | X : usub _ _ = OK _ |- _ => apply usub_inv in X
  end. lia.
Qed.

(** Removing what was just inserted gives the original back. *)
Lemma Remove_Insert : forall T (z : T) (sub m : mat T) pos,
  nr sub = nc sub -> pos <= nr m -> pos <= nc m ->
  exists out back, InsertInMatrix z sub m pos pos = OK out /\
    RemoveFromMatrix z out pos pos (nr sub) = OK back /\ meq back m.
Proof.
  intros T z sub m pos Hsq Hr Hc.
  destruct (Insert_spec T z sub m pos pos Hr Hc) as [out [E [Er [Ec Hent]]]].
  destruct (Remove_spec T z out pos pos (nr sub)) as [back [E' [Er' [Ec' Hent']]]]; try lia.
  exists out, back. split; [exact E|]. split; [exact E'|].
  repeat split; try lia. intros i j Hi Hj. rewrite Hent' by lia.
  assert (B : forall k, k < nr m -> skip pos (nr sub) k < nr m + nr sub).
  { intros k Hk. unfold skip. destruct (k <? pos); lia. }
  assert (B' : forall k, k < nc m -> skip pos (nr sub) k < nc m + nr sub).
  { intros k Hk. unfold skip. destruct (k <? pos); lia. }
  rewrite Hent; [| rewrite Er; apply B; lia | rewrite Ec, <- Hsq; apply B'; lia].
  unfold insert_entry. rewrite <- Hsq, !unshift_skip. reflexivity.
Qed.

(** The block that was inserted can be read back. *)
Lemma Insert_read_back : forall T (z : T) (sub m : mat T) row col,
  row <= nr m -> col <= nc m ->
  exists out b, InsertInMatrix z sub m row col = OK out /\
    block out row col (nr sub) (nc sub) = OK b /\ meq b sub.
Proof.
  intros T z sub m row col Hr Hc.
  destruct (Insert_spec T z sub m row col Hr Hc) as [out [E [Er [Ec Hent]]]].
  eexists; eexists. split; [exact E|]. split; [apply block_ok; lia|].
  repeat split. cbn [nr nc ent]. intros i j Hi Hj. rewrite Hent by lia.
  unfold insert_entry. rewrite !unshift_mid by lia. f_equal; lia.
Qed.

(** Two removals at different places commute (indices shifted). *)
Lemma Remove_Remove_comm : forall T (z : T) (m : mat T) p q s t,
  p + s <= q -> q + t <= nr m -> nr m = nc m ->
  exists a b c d,
    RemoveFromMatrix z m q q t = OK a /\ RemoveFromMatrix z a p p s = OK b /\
    RemoveFromMatrix z m p p s = OK c /\ RemoveFromMatrix z c (q - s) (q - s) t = OK d /\
    meq b d.
Proof.
  intros T z m p q s t Hpq Hq Hsq.
  destruct (Remove_spec T z m q q t) as [a [Ea [Ra [Ca Ha]]]]; try lia.
  destruct (Remove_spec T z a p p s) as [b [Eb [Rb [Cb Hb]]]]; try lia.
  destruct (Remove_spec T z m p p s) as [c [Ec [Rc [Cc Hcc]]]]; try lia.
  destruct (Remove_spec T z c (q - s) (q - s) t) as [d [Ed [Rd [Cd Hd]]]]; try lia.
  exists a, b, c, d. do 4 (split; [assumption|]).
  assert (K : forall i, i < nr m - s - t -> skip q t (skip p s i) = skip p s (skip (q - s) t i)).
  { intros i Hi. unfold skip.
    destruct (i <? p) eqn:E1; [apply Nat.ltb_lt in E1|apply Nat.ltb_ge in E1];
    destruct (i <? q - s) eqn:E2; [apply Nat.ltb_lt in E2|apply Nat.ltb_ge in E2| apply Nat.ltb_lt in E2|apply Nat.ltb_ge in E2];
    repeat match goal with |- context [?x <? ?y] =>
      let E := fresh in destruct (x <? y) eqn:E; [apply Nat.ltb_lt in E|apply Nat.ltb_ge in E] end; lia. }
  assert (B : forall x pos len n, x < n - len -> pos + len <= n -> skip pos len x < n).
  { intros x pos len n H1 H2. unfold skip. destruct (x <? pos); lia. }
  repeat split; try lia. intros i j Hi Hj.
  assert (B1 : forall x, x < nr m - t - s -> skip p s x < nr m - t).
  { intros x Hx. apply B; lia. }
  assert (B2 : forall x, x < nr m - t - s -> skip (q - s) t x < nr m - s).
  { intros x Hx. apply B; lia. }
  rewrite Hb, Hd by lia.
  rewrite Ha; [| rewrite Ra; apply B1; lia | rewrite Ca, <- Hsq; apply B1; lia].
  rewrite Hcc; [| rewrite Rc; apply B2; lia | rewrite Cc, <- Hsq; apply B2; lia].
  rewrite !K by lia. reflexivity.
Qed.
