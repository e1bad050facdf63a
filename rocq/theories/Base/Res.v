(** Outcomes of C++ calls.  [UB] stands for undefined behaviour: an
    out-of-range Eigen block, mismatching Eigen shapes, [back()] of an empty
    vector, reading an uninitialised member, a wrapping unsigned
    subtraction, or a division by zero that would store a NaN or an infinity. *)
From Coq Require Import List Arith Lia.
Import ListNotations.

Inductive res (A : Type) : Type :=
| OK : A -> res A
| UB : res A.
Arguments OK {A} _.
Arguments UB {A}.

Definition bind {A B : Type} (m : res A) (f : A -> res B) : res B :=
  match m with OK a => f a | UB => UB end.

Definition rmap {A B : Type} (f : A -> B) (m : res A) : res B :=
  match m with OK a => OK (f a) | UB => UB end.

Notation "'let*' x ':=' m 'in' k" := (bind m (fun x => k))
  (at level 200, x pattern, m at level 100, k at level 200, right associativity).

Definition is_ok {A : Type} (m : res A) : Prop := exists a, m = OK a.

(** Unsigned subtraction: [UB] when it would wrap around. *)
Definition usub (a b : nat) : res nat := if b <=? a then OK (a - b) else UB.

(** Guard: continue only if the condition holds. *)
Definition guard (b : bool) : res unit := if b then OK tt else UB.

(** A loop that computes a list. *)
Fixpoint mapM {A B : Type} (f : A -> res B) (l : list A) : res (list B) :=
  match l with
  | [] => OK []
  | x :: t => let* y := f x in let* ys := mapM f t in OK (y :: ys)
  end.

Lemma bind_OK : forall A B (m : res A) (f : A -> res B) b,
  bind m f = OK b -> exists a, m = OK a /\ f a = OK b.
Proof. intros A B m f b H. destruct m as [a|]; simpl in H; [eauto | discriminate]. Qed.

Lemma usub_ok : forall a b, b <= a -> usub a b = OK (a - b).
Proof. intros a b H. unfold usub. apply Nat.leb_le in H. now rewrite H. Qed.

Lemma usub_inv : forall a b c, usub a b = OK c -> b <= a /\ c = a - b.
Proof.
  intros a b c H. unfold usub in H. destruct (b <=? a) eqn:E; [|discriminate].
  apply Nat.leb_le in E. injection H as <-. auto.
Qed.

Lemma guard_ok : forall b, b = true -> guard b = OK tt.
Proof. intros b ->. reflexivity. Qed.

Lemma guard_inv : forall b u, guard b = OK u -> b = true.
Proof. intros [|] u H; [reflexivity | discriminate]. Qed.

Ltac binv H :=
  match type of H with
  | bind _ _ = OK _ =>
      let a := fresh "a" in let H1 := fresh "Hb" in let H2 := fresh "Hc" in
      apply bind_OK in H; destruct H as [a [H1 H2]]
  end.
