(* Lexicographic enumeration of boxes, next_lex *)
From Coq Require Import ZArith List Bool Lia Sorted Permutation ZifyBool ZifyNat.
From Verif Require Import Base Model_Space Model_RangeList Model_Mem Model_Layout Spec_Space Spec_Type Spec_Layout
  Proof_Space Proof_Type Proof_Type2 Proof_RangeList5.
Import ListNotations.
Open Scope Z_scope.

(* canonical form of an index *)
Definition can (d : nat) (i : index) : index :=
  mkIdx (i0 i) (if Nat.ltb 1 d then i1 i else 0) (if Nat.ltb 2 d then i2 i else 0).

Definition row (n : nat) (x y z : Z) : list index := map (fun x => mkIdx x y z) (zseq x n).
Definition plane (n : nat) (f0 t0 y z : Z) : list index := flat_map (fun y => row (Z.to_nat (t0 - f0)) f0 y z) (zseq y n).
Definition cube (n : nat) (f0 t0 f1 t1 z : Z) : list index :=
  flat_map (fun z => plane (Z.to_nat (t1 - f1)) f0 t0 f1 z) (zseq z n).

(* rest of the enumeration of a box, starting with index i *)
Definition lexfrom (d : nat) (b : box) (i : index) : list index :=
  let f0 := i0 (b_from b) in let t0 := i0 (b_to b) in
  let f1 := i1 (b_from b) in let t1 := i1 (b_to b) in
  let t2 := i2 (b_to b) in
  let j := can d i in
  row (Z.to_nat (t0 - i0 j)) (i0 j) (i1 j) (i2 j) ++
  (if Nat.ltb 1 d then plane (Z.to_nat (t1 - i1 j - 1)) f0 t0 (i1 j + 1) (i2 j) else []) ++
  (if Nat.ltb 2 d then cube (Z.to_nat (t2 - i2 j - 1)) f0 t0 f1 t1 (i2 j + 1) else []).

Definition lexlist (d : nat) (b : box) : list index := lexfrom d b (b_from b).

Lemma can_can d i : can d (can d i) = can d i.
Proof. unfold can; simpl. destruct (Nat.ltb 1 d), (Nat.ltb 2 d); reflexivity. Qed.

Lemma lexfrom_can d b i : lexfrom d b (can d i) = lexfrom d b i.
Proof. unfold lexfrom. now rewrite can_can. Qed.

Lemma can_same d i j : can d i = can d j <-> SameIndex d i j.
Proof.
  unfold can, SameIndex. destruct i as [x y z], j as [x' y' z']; simpl.
  destruct (Nat.ltb 1 d) eqn:E1, (Nat.ltb 2 d) eqn:E2; split; intros H; try (injection H; intros);
    try (conjs; auto; intros; lia); try (destruct H as [? [? ?]]; f_equal; auto; apply Nat.ltb_lt in E1 || apply Nat.ltb_lt in E2; auto);
    try (apply H1; apply Nat.ltb_lt; auto); try (apply H0; apply Nat.ltb_lt; auto).
Qed.

Lemma can_canon d i : canon d (can d i).
Proof. unfold canon, can; simpl. split; intros; destruct (Nat.ltb _ d) eqn:E; auto; apply Nat.ltb_lt in E; lia. Qed.

Lemma canon_can d i : canon d i -> can d i = i.
Proof.
  unfold canon, can. destruct i as [x y z]; simpl. intros [H1 H2].
  f_equal; destruct (Nat.ltb _ d) eqn:E; auto; apply Nat.ltb_ge in E; symmetry; auto.
Qed.

Lemma InBox_can d i b : InBox d (can d i) b <-> InBox d i b.
Proof.
  unfold InBox, can; simpl. destruct (Nat.ltb 1 d) eqn:E1, (Nat.ltb 2 d) eqn:E2;
  try apply Nat.ltb_lt in E1; try apply Nat.ltb_lt in E2; try apply Nat.ltb_ge in E1; try apply Nat.ltb_ge in E2;
  try reflexivity; split; intros [? [? ?]]; conjs; auto; intros; lia.
Qed.

Lemma zseq_S x n : zseq x (S n) = x :: zseq (x + 1) n.
Proof. reflexivity. Qed.

(* the enumeration follows next_lex *)
Lemma lexfrom_step d b i : valid_dims d -> InBox d i b ->
  lexfrom d b i = can d i :: match next_lex d b i with (true, j) => lexfrom d b j | (false, _) => [] end.
Proof.
  intros Hd [H0 [H1 H2]]. destruct b as [[f0 f1 f2] [t0 t1 t2]], i as [x y z]. simpl in *.
  unfold next_lex, lexfrom, can; simpl.
  assert (R : forall y z, row (Z.to_nat (t0 - x)) x y z = mkIdx x y z :: row (Z.to_nat (t0 - (x + 1))) (x + 1) y z).
  { intros. replace (Z.to_nat (t0 - x)) with (S (Z.to_nat (t0 - (x + 1)))) by lia. unfold row. rewrite zseq_S. reflexivity. }
  rewrite R. simpl. f_equal.
  destruct (x + 1 <? t0) eqn:E0.
  { destruct Hd as [->|[->| ->]]; simpl; reflexivity. }
  assert (R0 : forall y z, row (Z.to_nat (t0 - (x + 1))) (x + 1) y z = []).
  { intros. replace (Z.to_nat (t0 - (x + 1))) with O by lia. reflexivity. }
  rewrite R0. simpl.
  destruct Hd as [->|[->| ->]]; simpl; auto.
  - assert (y < t1) by lia. rewrite !app_nil_r. destruct (y + 1 <? t1) eqn:E1.
    + replace (Z.to_nat (t1 - y - 1)) with (S (Z.to_nat (t1 - (y + 1) - 1))) by lia.
      unfold plane. rewrite zseq_S. simpl. now rewrite app_nil_r.
    + replace (Z.to_nat (t1 - y - 1)) with O by lia. reflexivity.
  - destruct (y + 1 <? t1) eqn:E1.
    + replace (Z.to_nat (t1 - y - 1)) with (S (Z.to_nat (t1 - (y + 1) - 1))) by lia.
      unfold plane. rewrite zseq_S. simpl. now rewrite app_assoc.
    + replace (Z.to_nat (t1 - y - 1)) with O by lia. unfold plane at 1. simpl.
      destruct (z + 1 <? t2) eqn:E2.
      * replace (Z.to_nat (t2 - z - 1)) with (S (Z.to_nat (t2 - (z + 1) - 1))) by lia.
        unfold cube. rewrite zseq_S. simpl. unfold plane at 1.
        replace (Z.to_nat (t1 - f1)) with (S (Z.to_nat (t1 - f1 - 1))) at 1 by lia.
        rewrite zseq_S. simpl. rewrite <- app_assoc. reflexivity.
      * replace (Z.to_nat (t2 - z - 1)) with O by lia. reflexivity.
Qed.

Lemma next_lex_in d b i j : valid_dims d -> InBox d i b -> next_lex d b i = (true, j) -> InBox d j b.
Proof.
  intros Hd H. destruct b as [[f0 f1 f2] [t0 t1 t2]], i as [x y z]. unfold InBox in *; simpl in *.
  unfold next_lex; simpl. destruct (x + 1 <? t0) eqn:E0.
  { intros E; injection E as <-; simpl. lia. }
  destruct Hd as [->|[->| ->]]; simpl.
  - discriminate.
  - destruct (y + 1 <? t1) eqn:E1; intros E; [|discriminate]. injection E as <-; simpl. lia.
  - destruct (y + 1 <? t1) eqn:E1; intros E.
    + injection E as <-; simpl. lia.
    + injection E as E <-; simpl. lia.
Qed.

(* next index is the least larger one *)
Lemma next_lex_lt d b i j : valid_dims d -> InBox d i b -> next_lex d b i = (true, j) -> LexLt d i j.
Proof.
  intros Hd H. destruct b as [[f0 f1 f2] [t0 t1 t2]], i as [x y z]. unfold InBox in *; simpl in *.
  unfold next_lex; simpl. unfold LexLt. destruct (x + 1 <? t0) eqn:E0.
  { intros E; injection E as <-; simpl. lia. }
  destruct Hd as [->|[->| ->]]; simpl.
  - discriminate.
  - destruct (y + 1 <? t1) eqn:E1; intros E; [|discriminate]. injection E as <-; simpl. lia.
  - destruct (y + 1 <? t1) eqn:E1; intros E; injection E; intros; subst j; simpl; lia.
Qed.

Lemma zseq_In' x n k : In k (zseq x n) <-> x <= k < x + Z.of_nat n.
Proof. apply zseq_In. Qed.

Lemma row_In n x y z i : In i (row n x y z) <-> (x <= i0 i < x + Z.of_nat n /\ i1 i = y /\ i2 i = z).
Proof.
  unfold row. rewrite in_map_iff. split.
  - intros [a [<- H]]. apply zseq_In' in H. simpl. lia.
  - intros [H [<- <-]]. exists (i0 i). split; [destruct i; reflexivity|]. now apply zseq_In'.
Qed.
Lemma plane_In n f0 t0 y z i : In i (plane n f0 t0 y z) <->
  (f0 <= i0 i < t0 /\ y <= i1 i < y + Z.of_nat n /\ i2 i = z).
Proof.
  unfold plane. rewrite in_flat_map. split.
  - intros [a [H1 H2]]. apply zseq_In' in H1. apply row_In in H2. lia.
  - intros [H1 [H2 H3]]. exists (i1 i). split; [now apply zseq_In'|]. apply row_In. lia.
Qed.
Lemma cube_In n f0 t0 f1 t1 z i : In i (cube n f0 t0 f1 t1 z) <->
  (f0 <= i0 i < t0 /\ f1 <= i1 i < t1 /\ z <= i2 i < z + Z.of_nat n).
Proof.
  unfold cube. rewrite in_flat_map. split.
  - intros [a [H1 H2]]. apply zseq_In' in H1. apply plane_In in H2. lia.
  - intros [H1 [H2 H3]]. exists (i2 i). split; [now apply zseq_In'|]. apply plane_In. lia.
Qed.

(* the rest of the enumeration from i: the indexes of the box not before i *)
Lemma lexfrom_In d b i j : valid_dims d -> InBox d i b ->
  (In j (lexfrom d b i) <-> InBox d j b /\ canon d j /\ ~ LexLt d j i).
Proof.
  intros Hd [H0 [H1 H2]]. unfold lexfrom. rewrite !in_app_iff, row_In. simpl.
  unfold LexLt, canon, InBox.
  destruct Hd as [->|[->| ->]]; simpl; rewrite ?plane_In, ?cube_In; simpl; lia.
Qed.

Lemma LexLt_trans d i j k : valid_dims d -> LexLt d i j -> LexLt d j k -> LexLt d i k.
Proof. unfold LexLt. intros [->|[->| ->]]; lia. Qed.
Lemma LexLt_irrefl d i : ~ LexLt d i i.
Proof. unfold LexLt. lia. Qed.
Lemma LexLt_can d i j : valid_dims d -> (LexLt d (can d i) (can d j) <-> LexLt d i j).
Proof. unfold LexLt, can. intros [->|[->| ->]]; simpl; lia. Qed.
Lemma LexLt_total d i j : valid_dims d -> LexLt d i j \/ SameIndex d i j \/ LexLt d j i.
Proof. unfold LexLt, SameIndex. intros [->|[->| ->]]; simpl; lia. Qed.

Lemma lexfrom_sorted_aux d b : valid_dims d -> forall n i, (length (lexfrom d b i) < n)%nat -> InBox d i b ->
  StronglySorted (LexLt d) (lexfrom d b i).
Proof.
  intros Hd. induction n; intros i Hn Hi; [lia|].
  rewrite (lexfrom_step d b i Hd Hi) in *. simpl in Hn. constructor.
  - destruct (next_lex d b i) as [[] j] eqn:E; [|constructor].
    apply IHn; [lia|]. eapply next_lex_in; eauto.
  - destruct (next_lex d b i) as [[] j] eqn:E; [|constructor].
    apply Forall_forall. intros k Hk. assert (Hj : InBox d j b) by (eapply next_lex_in; eauto).
    apply lexfrom_In in Hk; auto. destruct Hk as [K1 [K2 K3]].
    assert (G := next_lex_lt d b i j Hd Hi E).
    destruct (LexLt_total d (can d i) k Hd) as [L|[L|L]]; auto.
    + exfalso. apply K3. unfold LexLt, SameIndex, can in *. destruct Hd as [->|[->| ->]]; simpl in *; lia.
    + exfalso. apply K3. unfold LexLt, SameIndex, can in *. destruct Hd as [->|[->| ->]]; simpl in *; lia.
Qed.

Lemma lexlist_enum d b : valid_dims d -> NonEmpty d b -> Enumerates d b (lexlist d b).
Proof.
  intros Hd [k Hk].
  assert (Hf : InBox d (b_from b) b) by (unfold InBox in *; lia).
  split.
  - intros i. unfold lexlist. rewrite lexfrom_In; auto. split; [tauto|]. intros [H1 H2]. conjs; auto.
    unfold LexLt, InBox in *. destruct Hd as [->|[->| ->]]; simpl in *; lia.
  - unfold lexlist. eapply lexfrom_sorted_aux; eauto.
Qed.

Lemma sorted_unique {A} (R : A -> A -> Prop) : (forall x, ~ R x x) -> (forall x y z, R x y -> R y z -> R x z) ->
  forall l l', StronglySorted R l -> StronglySorted R l' -> (forall x, In x l <-> In x l') -> l = l'.
Proof.
  intros Hi Ht. induction l as [|a l IH]; intros l' S S' E.
  - destruct l' as [|b l']; auto. exfalso. apply (E b). now left.
  - destruct l' as [|b l']; [exfalso; apply (E a); now left|].
    apply StronglySorted_inv in S. destruct S as [S1 S2]. apply StronglySorted_inv in S'. destruct S' as [S1' S2'].
    rewrite Forall_forall in S2, S2'.
    assert (a = b).
    { destruct (proj1 (E a) (or_introl eq_refl)) as [->|Ha]; auto.
      destruct (proj2 (E b) (or_introl eq_refl)) as [->|Hb]; auto.
      exfalso. apply (Hi a). eapply Ht; [apply S2; exact Hb | apply S2'; exact Ha]. }
    subst b. f_equal. apply IH; auto. intros x. split; intros Hx.
    + destruct (proj1 (E x) (or_intror Hx)) as [->|H]; auto. exfalso. eapply Hi; apply S2; eauto.
    + destruct (proj2 (E x) (or_intror Hx)) as [->|H]; auto. exfalso. eapply Hi; apply S2'; eauto.
Qed.

Lemma Enumerates_unique d b L : valid_dims d -> NonEmpty d b -> Enumerates d b L -> L = lexlist d b.
Proof.
  intros Hd Hn [H1 H2]. destruct (lexlist_enum d b Hd Hn) as [K1 K2].
  eapply sorted_unique; eauto. apply LexLt_irrefl. intros; eapply LexLt_trans; eauto.
  intros x. rewrite H1, K1. reflexivity.
Qed.

Lemma Enumerates_NoDup d b L : Enumerates d b L -> NoDup L.
Proof.
  intros [_ H]. induction H; constructor; auto. intros Hin. rewrite Forall_forall in H0.
  eapply LexLt_irrefl. apply H0. exact Hin.
Qed.
Lemma HasCount_unique d b n n' : HasCount d b n -> HasCount d b n' -> n = n'.
Proof.
  intros [l [A1 [A2 A3]]] [l' [B1 [B2 B3]]].
  assert (Permutation l l') by (apply NoDup_Permutation; auto; intros; rewrite A2, B2; reflexivity).
  apply Permutation_length in H. lia.
Qed.
Lemma Enumerates_count d b L n : Enumerates d b L -> HasCount d b n -> Z.of_nat (length L) = n.
Proof.
  intros E H. eapply HasCount_unique; eauto. exists L. conjs; auto. eapply Enumerates_NoDup; eauto. apply E.
Qed.
