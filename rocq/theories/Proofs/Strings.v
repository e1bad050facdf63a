(** Lemmas about splitting lines at commas, decimal notation, and the string helpers. *)
From Coq Require Import Reals List Arith Bool String Ascii DecimalString DecimalNat ZArith Lia FinFun.
From Verif Require Import Base.Geom Model.StringHelper Spec.Csv.
Import ListNotations.
Open Scope string_scope.

Lemma app_empty_r : forall s, s ++ "" = s.
Proof. induction s as [|c s IH]; cbn; [reflexivity | now rewrite IH]. Qed.

Lemma app_assoc_s : forall a b c : string, (a ++ b) ++ c = a ++ (b ++ c).
Proof. induction a as [|x a IH]; intros b c; cbn; [reflexivity | now rewrite IH]. Qed.

Lemma columns_ne : forall s, columns s <> [].
Proof.
  induction s as [|c s IH]; cbn; [discriminate|].
  destruct (Ascii.eqb c ","); [discriminate|]. destruct (columns s); [contradiction | discriminate].
Qed.

Lemma columns_comma : forall a b, columns (a ++ "," ++ b) = (columns a ++ columns b)%list.
Proof.
  induction a as [|c a IH]; intros b; [reflexivity|].
  cbn. change (String "," b) with ("," ++ b). rewrite IH.
  destruct (Ascii.eqb c ","); [reflexivity|].
  destruct (columns a) eqn:E; [now apply columns_ne in E | reflexivity].
Qed.

Lemma columns_plain : forall s, no_comma s -> columns s = [s].
Proof.
  induction s as [|c s IH]; cbn; [reflexivity|]. intros [H1 H2].
  apply Ascii.eqb_neq in H1. rewrite H1, (IH H2). reflexivity.
Qed.

Lemma columns_add : forall a b, no_comma b -> columns (a ++ "," ++ b) = (columns a ++ [b])%list.
Proof. intros a b H. now rewrite columns_comma, (columns_plain b H). Qed.

Lemma no_comma_app : forall a b, no_comma a -> no_comma b -> no_comma (a ++ b).
Proof. induction a as [|c a IH]; cbn; [auto|]. intros b [H1 H2] H3. auto. Qed.

Lemma to_string_plain : forall n, no_comma (to_string n).
Proof.
  intros n. unfold to_string. generalize (Nat.to_uint n) as u.
  induction u; cbn; auto; split; auto; intro H; discriminate H.
Qed.

Lemma int_string_plain : forall z, no_comma (int_string z).
Proof.
  intros z. unfold int_string. destruct (z <? 0)%Z; [|apply to_string_plain].
  apply no_comma_app; [|apply to_string_plain]. cbn. split; [intro H; discriminate H | exact I].
Qed.

Lemma to_string_inj : forall m n, to_string m = to_string n -> m = n.
Proof.
  intros m n H. unfold to_string in H.
  apply (f_equal NilEmpty.uint_of_string) in H. rewrite !NilEmpty.usu in H.
  injection H as H. now apply Unsigned.to_uint_inj.
Qed.

Lemma app_inj_l : forall a b c, a ++ b = a ++ c -> b = c.
Proof. induction a as [|x a IH]; cbn; intros b c H; [exact H | injection H as H; eauto]. Qed.

Lemma fold_app : forall {A} (f : A -> string) (l : list A) p s,
  p ++ fold_left (fun s x => s ++ f x) l s = fold_left (fun s x => s ++ f x) l (p ++ s).
Proof.
  induction l as [|x l IH]; intros p s; [reflexivity|].
  cbn. now rewrite IH, app_assoc_s.
Qed.

Lemma fold_columns : forall {A} (f : A -> string) (l : list A) p,
  (forall x, In x l -> no_comma (f x)) ->
  columns (fold_left (fun s x => s ++ "," ++ f x) l p) = (columns p ++ map f l)%list.
Proof.
  induction l as [|x l IH]; intros p H; cbn [fold_left map]; [now rewrite app_nil_r|].
  rewrite IH by (intros; apply H; now right).
  rewrite columns_add by (apply H; now left). now rewrite <- app_assoc.
Qed.

(** Column [i] of an enumerated group. *)
Definition group_name (name : string) (i : nat) : string := name ++ "_" ++ to_string i.

Lemma enumerate_columns : forall p name n, no_comma name ->
  columns (p ++ EnumerateHeader name n) = (columns p ++ map (group_name name) (seq 0 n))%list.
Proof.
  intros p name n H. unfold EnumerateHeader.
  rewrite (fold_app (fun i => "," ++ name ++ "_" ++ to_string i)), app_empty_r.
  apply (fold_columns (group_name name)). intros i _. unfold group_name.
  apply no_comma_app; [exact H|]. apply no_comma_app; [|apply to_string_plain].
  cbn. split; [intro E; discriminate E | exact I].
Qed.

Lemma group_names_differ : forall name n, NoDup (map (group_name name) (seq 0 n)).
Proof.
  intros name n. apply FinFun.Injective_map_NoDup; [|apply seq_NoDup].
  intros i j H. unfold group_name in H. apply app_inj_l in H. apply app_inj_l in H.
  now apply to_string_inj.
Qed.

Lemma vector_columns : forall show p v, (forall x, no_comma (show x)) ->
  columns (p ++ VectorToCommaString show v) = (columns p ++ map show v)%list.
Proof.
  intros show p v H. unfold VectorToCommaString.
  rewrite (fold_app (fun x => "," ++ show x)), app_empty_r.
  apply fold_columns. auto.
Qed.

Lemma quat_columns : forall show p q, (forall x, no_comma (show x)) ->
  columns (p ++ QuaternionToCommaString show q) =
  (columns p ++ [show (qw q); show (qx q); show (qy q); show (qz q)])%list.
Proof.
  intros show p q H. unfold QuaternionToCommaString.
  repeat rewrite columns_comma. rewrite !(columns_plain (show _)) by apply H. reflexivity.
Qed.

Lemma to_string_reads_back : forall n, option_map Nat.of_uint (NilEmpty.uint_of_string (to_string n)) = Some n.
Proof. intros n. unfold to_string. rewrite NilEmpty.usu. cbn. now rewrite Unsigned.of_to. Qed.
