(** [std::map<unsigned int, A>]: association lists sorted by key. *)
From Coq Require Import List Arith Lia Sorted.
Import ListNotations.

Definition amap (A : Type) := list (nat * A).

Fixpoint mfind {A} (k : nat) (m : amap A) : option A :=
  match m with
  | [] => None
  | (k', v) :: t => if Nat.eqb k k' then Some v else mfind k t
  end.

(** [m[k] = v]: replace or insert in key order. *)
Fixpoint mset {A} (k : nat) (v : A) (m : amap A) : amap A :=
  match m with
  | [] => [(k, v)]
  | (k', v') :: t =>
      if Nat.eqb k k' then (k, v) :: t
      else if Nat.ltb k k' then (k, v) :: (k', v') :: t
      else (k', v') :: mset k v t
  end.

(** [m[k]] read: inserts the default value when the key is absent. *)
Definition mtouch {A} (d : A) (k : nat) (m : amap A) : amap A :=
  match mfind k m with Some _ => m | None => mset k d m end.
Definition mget {A} (d : A) (k : nat) (m : amap A) : A :=
  match mfind k m with Some v => v | None => d end.

Definition keys {A} (m : amap A) : list nat := map fst m.
Definition sorted {A} (m : amap A) : Prop := StronglySorted lt (keys m).

Lemma sorted_nil : forall A, @sorted A [].
Proof. intros. constructor. Qed.

Lemma mset_keys_in : forall A k (v : A) m x, In x (keys (mset k v m)) -> x = k \/ In x (keys m).
Proof.
  induction m as [|[k' v'] t IH]; simpl; intros x H.
  - intuition.
  - destruct (Nat.eqb k k') eqn:E; [|destruct (Nat.ltb k k') eqn:E2]; simpl in *.
    + apply Nat.eqb_eq in E. subst. intuition.
    + intuition.
    + destruct H as [H|H]; [auto|]. apply IH in H. intuition.
Qed.

Lemma mset_sorted : forall A k (v : A) m, sorted m -> sorted (mset k v m).
Proof.
  unfold sorted. induction m as [|[k' v'] t IH]; simpl; intros H.
  - repeat constructor.
  - inversion H as [|? ? Hs Hf]; subst.
    destruct (Nat.eqb k k') eqn:E; [|destruct (Nat.ltb k k') eqn:E2]; simpl.
    + apply Nat.eqb_eq in E. subst. constructor; auto.
    + apply Nat.ltb_lt in E2. constructor; [auto|]. constructor; [auto|].
      rewrite Forall_forall in *. intros x Hx. specialize (Hf x Hx). lia.
    + apply Nat.eqb_neq in E. apply Nat.ltb_ge in E2. constructor; [auto|].
      rewrite Forall_forall in *. intros x Hx. apply mset_keys_in in Hx. destruct Hx as [->|Hx]; [lia|auto].
Qed.

Lemma mfind_mset_eq : forall A k (v : A) m, mfind k (mset k v m) = Some v.
Proof.
  induction m as [|[k' v'] t IH]; simpl.
  - now rewrite Nat.eqb_refl.
  - destruct (Nat.eqb k k') eqn:E; [|destruct (Nat.ltb k k') eqn:E2]; simpl.
    + now rewrite Nat.eqb_refl.
    + now rewrite Nat.eqb_refl.
    + now rewrite E.
Qed.

Lemma mfind_mset_neq : forall A k k2 (v : A) m, k2 <> k -> mfind k2 (mset k v m) = mfind k2 m.
Proof.
  intros A k k2 v m Hne. induction m as [|[k' v'] t IH]; simpl.
  - apply Nat.eqb_neq in Hne. now rewrite Hne.
  - destruct (Nat.eqb k k') eqn:E; [|destruct (Nat.ltb k k') eqn:E2]; simpl.
    + apply Nat.eqb_eq in E. subst. apply Nat.eqb_neq in Hne. now rewrite Hne.
    + apply Nat.eqb_neq in Hne. now rewrite Hne.
    + now rewrite IH.
Qed.

Lemma mfind_in : forall A k (v : A) m, mfind k m = Some v -> In (k, v) m.
Proof.
  induction m as [|[k' v'] t IH]; simpl; intros H; [discriminate|].
  destruct (Nat.eqb k k') eqn:E.
  - apply Nat.eqb_eq in E. injection H as <-. subst. auto.
  - right. auto.
Qed.

Lemma mfind_none : forall A k (m : amap A), mfind k m = None <-> ~ In k (keys m).
Proof.
  induction m as [|[k' v'] t IH]; simpl.
  - tauto.
  - destruct (Nat.eqb k k') eqn:E.
    + apply Nat.eqb_eq in E. subst. split; [discriminate|]. intros H. exfalso. apply H. auto.
    + apply Nat.eqb_neq in E. rewrite IH. intuition.
Qed.

(** Inserting a fresh key splits the list. *)
Lemma mset_fresh : forall A k (v : A) m, mfind k m = None ->
  exists l r, m = l ++ r /\ mset k v m = l ++ (k, v) :: r /\
    Forall (fun x => fst x < k) l /\
    match r with [] => True | (k', _) :: _ => k < k' end.
Proof.
  induction m as [|[k' v'] t IH]; simpl; intros H.
  - exists [], []. repeat split; auto.
  - destruct (Nat.eqb k k') eqn:E; [discriminate|].
    apply Nat.eqb_neq in E.
    destruct (Nat.ltb k k') eqn:E2.
    + apply Nat.ltb_lt in E2. exists [], ((k', v') :: t). repeat split; auto.
    + apply Nat.ltb_ge in E2. destruct (IH H) as [l [r [E3 [E4 [E5 E6]]]]].
      exists ((k', v') :: l), r. rewrite E4. rewrite E3 at 1. repeat split; auto.
      constructor; auto. simpl. lia.
Qed.

(** Setting an existing key replaces the value in place. *)
Lemma mset_present : forall A k (v : A) m w, mfind k m = Some w -> sorted m ->
  exists l r, m = l ++ (k, w) :: r /\ mset k v m = l ++ (k, v) :: r.
Proof.
  unfold sorted. induction m as [|[k' v'] t IH]; simpl; intros w H Hs; [discriminate|].
  inversion Hs as [|? ? Hs' Hf]; subst.
  destruct (Nat.eqb k k') eqn:E.
  - apply Nat.eqb_eq in E. subst. injection H as ->. exists [], t. auto.
  - destruct (Nat.ltb k k') eqn:E2.
    + apply Nat.ltb_lt in E2. exfalso. apply mfind_in in H.
      apply (in_map fst) in H. simpl in H. rewrite Forall_forall in Hf.
      specialize (Hf k H). lia.
    + destruct (IH w H Hs') as [l [r [E3 E4]]].
      exists ((k', v') :: l), r. rewrite E4. rewrite E3 at 1. auto.
Qed.

(** A new largest key is appended. *)
Lemma mset_append : forall A k (v : A) m, Forall (fun x => fst x < k) m -> mset k v m = m ++ [(k, v)].
Proof.
  induction m as [|[k' v'] t IH]; simpl; intros H; [reflexivity|].
  inversion H as [|? ? H1 H2]; subst. simpl in H1.
  assert (E : Nat.eqb k k' = false) by (apply Nat.eqb_neq; lia).
  assert (E2 : Nat.ltb k k' = false) by (apply Nat.ltb_ge; lia).
  rewrite E, E2, IH by auto. reflexivity.
Qed.
