(* General list lemmas missing from the standard library of Coq 8.16 *)
From Coq Require Import ZArith List Bool Lia ZifyBool ZifyNat.
Import ListNotations.

Lemma nth_error_firstn {A} (l : list A) n k :
  nth_error (firstn n l) k = if Nat.ltb k n then nth_error l k else None.
Proof.
  revert n k. induction l as [|a l IH]; intros n k.
  - rewrite firstn_nil. destruct k; destruct (Nat.ltb _ _); auto.
  - destruct n as [|n]; simpl.
    + destruct k; auto.
    + destruct k as [|k]; simpl; auto. rewrite IH. reflexivity.
Qed.

Lemma nth_error_skipn {A} (l : list A) n k :
  nth_error (skipn n l) k = nth_error l (n + k).
Proof.
  revert l. induction n as [|n IH]; intros l; simpl; auto.
  destruct l as [|a l]; simpl; auto. destruct k; auto.
Qed.

Lemma nth_error_ext {A} : forall l1 l2 : list A,
  (forall k, nth_error l1 k = nth_error l2 k) -> l1 = l2.
Proof.
  induction l1 as [|a l1 IH]; intros [|b l2] E; auto.
  - specialize (E 0%nat); discriminate.
  - specialize (E 0%nat); discriminate.
  - pose proof (E 0%nat) as E0. simpl in E0. injection E0 as ->. f_equal. apply IH.
    intros k. apply (E (S k)).
Qed.

Lemma Forall2_len {A B} (P : A -> B -> Prop) l1 l2 : Forall2 P l1 l2 -> length l1 = length l2.
Proof. induction 1; simpl; auto. Qed.

Lemma Forall2_nth_error_l {A B} (R : A -> B -> Prop) l l' : Forall2 R l l' -> forall n x, nth_error l n = Some x ->
  exists y, nth_error l' n = Some y /\ R x y.
Proof.
  induction 1 as [|a b l l' H F IH]; intros n x E; [destruct n; discriminate|].
  destruct n; simpl in *; [injection E as <-; eauto|auto].
Qed.

Lemma Forall2_nth_error_r {A B} (R : A -> B -> Prop) l l' : Forall2 R l l' -> forall n y, nth_error l' n = Some y ->
  exists x, nth_error l n = Some x /\ R x y.
Proof.
  induction 1 as [|a b l l' H F IH]; intros n x E; [destruct n; discriminate|].
  destruct n; simpl in *; [injection E as <-; eauto|auto].
Qed.

Lemma flat_map_length_const {A B} (f : A -> list B) n l : (forall x, length (f x) = n) -> length (flat_map f l) = (length l * n)%nat.
Proof. intros H. induction l; simpl; auto. rewrite app_length, H, IHl. reflexivity. Qed.

Lemma nth_error_combine {A B} : forall (l : list A) (l' : list B) n, nth_error (combine l l') n =
  match nth_error l n, nth_error l' n with Some a, Some b => Some (a, b) | _, _ => None end.
Proof.
  induction l as [|a l IH]; intros [|b l'] n; destruct n; simpl; auto. destruct (nth_error l n); auto.
Qed.

Lemma nth_error_seq : forall len start n, nth_error (seq start len) n = if (n <? len)%nat then Some (start + n)%nat else None.
Proof.
  induction len as [|len IH]; intros start n.
  - destruct n; reflexivity.
  - destruct n as [|n]; [simpl; f_equal; lia|]. cbn [seq nth_error]. rewrite IH.
    change (S n <? S len)%nat with (n <? len)%nat. destruct (n <? len)%nat; auto. f_equal. lia.
Qed.

Lemma filter_length_le' {A} (f : A -> bool) l : (length (filter f l) <= length l)%nat.
Proof. induction l; simpl; auto. destruct (f a); simpl; lia. Qed.
