(* Proofs about Model_Space *)
From Coq Require Import ZArith List Bool Lia ZifyBool ZifyNat.
From Verif Require Import Base Model_Space Spec_Space.
Import ListNotations.
Open Scope Z_scope.

Ltac dims_cases H := destruct H as [H|[H|H]]; subst.

Lemma box_isEmpty_spec d b :
  box_isEmpty d b = false <-> NonEmpty d b.
Proof.
  unfold box_isEmpty, NonEmpty, InBox. split.
  - intros H. exists (b_from b).
    destruct (i0 (b_from b) >=? i0 (b_to b)) eqn:E0; try discriminate.
    destruct (Nat.ltb 1 d) eqn:D1.
    + destruct (i1 (b_from b) >=? i1 (b_to b)) eqn:E1; try discriminate.
      destruct (Nat.ltb 2 d) eqn:D2.
      * destruct (i2 (b_from b) >=? i2 (b_to b)) eqn:E2; try discriminate. lia.
      * lia.
    + lia.
  - intros [i H].
    destruct (i0 (b_from b) >=? i0 (b_to b)) eqn:E0; [lia|].
    destruct (Nat.ltb 1 d) eqn:D1; auto.
    destruct (i1 (b_from b) >=? i1 (b_to b)) eqn:E1; [lia|].
    destruct (Nat.ltb 2 d) eqn:D2; auto.
    destruct (i2 (b_from b) >=? i2 (b_to b)) eqn:E2; [lia|auto].
Qed.

Lemma box_isEmpty_true d b :
  box_isEmpty d b = true <-> ~ NonEmpty d b.
Proof.
  rewrite <- box_isEmpty_spec. destruct (box_isEmpty d b); intuition congruence.
Qed.

Lemma intersectRange_some f1 t1 f2 t2 f t :
  intersectRange f1 t1 f2 t2 = Some (f, t) ->
  (forall x, f <= x < t <-> (f1 <= x < t1) /\ (f2 <= x < t2)) /\
  f = Z.max f1 f2 /\ t = Z.min t1 t2 /\ f1 < t2 /\ f2 < t1.
Proof.
  unfold intersectRange.
  destruct (f1 >=? t2) eqn:A; try discriminate.
  destruct (f2 >=? t1) eqn:B; try discriminate.
  intros H; inversion H; subst; clear H.
  destruct (f1 >? f2) eqn:C; destruct (t1 >? t2) eqn:D; repeat split; intros; lia.
Qed.

Lemma intersectRange_none f1 t1 f2 t2 x :
  intersectRange f1 t1 f2 t2 = None ->
  (f1 <= x < t1) -> (f2 <= x < t2) -> False.
Proof.
  unfold intersectRange.
  destruct (f1 >=? t2) eqn:A; [lia|].
  destruct (f2 >=? t1) eqn:B; [lia|discriminate].
Qed.

Lemma box_intersect_g_some g d a b c :
  box_intersect_g g d a b = Some c ->
  forall i, InBox d i c <-> InBox d i a /\ InBox d i b.
Proof.
  unfold box_intersect_g, InBox. intros H i.
  destruct (intersectRange (i0 (b_from a)) _ _ _) as [[f0 t0]|] eqn:E0; try discriminate.
  apply intersectRange_some in E0. destruct E0 as [E0 _]. specialize (E0 (i0 i)).
  destruct (Nat.ltb 1 d) eqn:D1.
  - destruct (intersectRange (i1 (b_from a)) _ _ _) as [[f1 t1]|] eqn:E1; try discriminate.
    apply intersectRange_some in E1. destruct E1 as [E1 _]. specialize (E1 (i1 i)).
    destruct (Nat.ltb 2 d) eqn:D2.
    + destruct (intersectRange (i2 (b_from a)) _ _ _) as [[f2 t2]|] eqn:E2; try discriminate.
      apply intersectRange_some in E2. destruct E2 as [E2 _]. specialize (E2 (i2 i)).
      inversion H; subst; clear H; simpl. lia.
    + inversion H; subst; clear H; simpl. lia.
  - inversion H; subst; clear H; simpl. lia.
Qed.

Lemma box_intersect_g_none g d a b :
  box_intersect_g g d a b = None ->
  forall i, InBox d i a -> InBox d i b -> False.
Proof.
  unfold box_intersect_g, InBox. intros H i Ha Hb.
  destruct (intersectRange (i0 (b_from a)) _ _ _) as [[f0 t0]|] eqn:E0.
  2:{ apply (intersectRange_none _ _ _ _ (i0 i)) in E0; lia. }
  destruct (Nat.ltb 1 d) eqn:D1; try discriminate.
  destruct (intersectRange (i1 (b_from a)) _ _ _) as [[f1 t1]|] eqn:E1.
  2:{ apply (intersectRange_none _ _ _ _ (i1 i)) in E1; lia. }
  destruct (Nat.ltb 2 d) eqn:D2; try discriminate.
  destruct (intersectRange (i2 (b_from a)) _ _ _) as [[f2 t2]|] eqn:E2; try discriminate.
  apply (intersectRange_none _ _ _ _ (i2 i)) in E2; lia.
Qed.

Lemma box_intersect_g_nonempty g d a b c :
  NonEmpty d a -> NonEmpty d b ->
  box_intersect_g g d a b = Some c -> NonEmpty d c.
Proof.
  unfold box_intersect_g, NonEmpty, InBox. intros [ia Ha] [ib Hb] H.
  destruct (intersectRange (i0 (b_from a)) _ _ _) as [[f0 t0]|] eqn:E0; try discriminate.
  apply intersectRange_some in E0.
  destruct (Nat.ltb 1 d) eqn:D1.
  - destruct (intersectRange (i1 (b_from a)) _ _ _) as [[f1 t1]|] eqn:E1; try discriminate.
    apply intersectRange_some in E1.
    destruct (Nat.ltb 2 d) eqn:D2.
    + destruct (intersectRange (i2 (b_from a)) _ _ _) as [[f2 t2]|] eqn:E2; try discriminate.
      apply intersectRange_some in E2.
      inversion H; subst; clear H; simpl. exists (mkIdx f0 f1 f2). simpl. lia.
    + inversion H; subst; clear H; simpl. exists (mkIdx f0 f1 0). simpl. lia.
  - inversion H; subst; clear H; simpl. exists (mkIdx f0 0 0). simpl. lia.
Qed.

(* --- expand --- *)

Lemma box_expand_contains d dst src :
  valid_dims d ->
  forall i, InBox d i dst \/ InBox d i src -> InBox d i (box_expand d dst src).
Proof.
  intros Hd i H. unfold box_expand, InBox in *. dims_cases Hd; simpl;
  repeat match goal with |- context[if ?c then _ else _] => destruct c eqn:? end; lia.
Qed.

Lemma box_expand_least d dst src c :
  valid_dims d -> NonEmpty d dst -> NonEmpty d src ->
  SubBox d dst c -> SubBox d src c -> SubBox d (box_expand d dst src) c.
Proof.
  intros Hd [x Hx] [y Hy] H1 H2 i Hi.
  (* corner points of both boxes are in c *)
  set (lastof := fun b => mkIdx (i0 (b_to b) - 1) (i1 (b_to b) - 1) (i2 (b_to b) - 1)).
  assert (A1 : InBox d (b_from dst) c). { apply H1. unfold InBox in *; lia. }
  assert (A2 : InBox d (b_from src) c). { apply H2. unfold InBox in *; lia. }
  assert (A3 : InBox d (lastof dst) c). { apply H1. unfold InBox, lastof in *; simpl; lia. }
  assert (A4 : InBox d (lastof src) c). { apply H2. unfold InBox, lastof in *; simpl; lia. }
  unfold box_expand, InBox, lastof in *. dims_cases Hd; simpl in *;
  repeat match goal with H : context[if ?c then _ else _] |- _ => destruct c eqn:? end; lia.
Qed.

(* --- within --- *)

Lemma within1_spec f1 t1 f2 t2 :
  within1 f1 t1 f2 t2 = true <-> (f1 < t1 -> f2 <= f1 /\ t1 <= t2).
Proof.
  unfold within1. destruct (f1 <? t1) eqn:A; [|intuition; lia].
  destruct (f1 <? f2) eqn:B; [split; [discriminate|lia]|].
  destruct (t1 >? t2) eqn:C; split; auto; try discriminate; lia.
Qed.

Lemma box_within_unfold d a b :
  valid_dims d ->
  box_within d a b = true <->
  (within1 (i0 (b_from a)) (i0 (b_to a)) (i0 (b_from b)) (i0 (b_to b)) = true /\
   ((1 < d)%nat -> within1 (i1 (b_from a)) (i1 (b_to a)) (i1 (b_from b)) (i1 (b_to b)) = true) /\
   ((2 < d)%nat -> within1 (i2 (b_from a)) (i2 (b_to a)) (i2 (b_from b)) (i2 (b_to b)) = true)).
Proof.
  intros Hd. unfold box_within.
  destruct (within1 (i0 _) _ _ _), (within1 (i1 _) _ _ _), (within1 (i2 _) _ _ _);
  dims_cases Hd; simpl; intuition (try lia; try discriminate).
Qed.

Lemma box_within_sound d a b :
  valid_dims d -> box_within d a b = true -> SubBox d a b.
Proof.
  intros Hd H i Hi. apply box_within_unfold in H; auto.
  destruct H as [H0 [H1 H2]]. rewrite within1_spec in H0.
  unfold InBox in *. repeat split; intros; try lia.
  all: repeat match goal with H : ?P -> within1 _ _ _ _ = true, K : ?P |- _ =>
         specialize (H K); rewrite within1_spec in H end; lia.
Qed.

Lemma box_within_complete d a b :
  valid_dims d -> NonEmpty d a -> SubBox d a b -> box_within d a b = true.
Proof.
  intros Hd [x Hx] H. apply box_within_unfold; auto.
  set (lastof := mkIdx (i0 (b_to a) - 1) (i1 (b_to a) - 1) (i2 (b_to a) - 1)).
  assert (A1 : InBox d (b_from a) b). { apply H. unfold InBox in *; lia. }
  assert (A2 : InBox d lastof b). { apply H. unfold InBox, lastof in *; simpl; lia. }
  unfold InBox, lastof in *; simpl in *.
  repeat split; intros; apply within1_spec; lia.
Qed.

(* --- equality --- *)

Lemma index_isEqual_spec d a b :
  valid_dims d ->
  index_isEqual d a b = true <->
  (i0 a = i0 b /\ ((1 < d)%nat -> i1 a = i1 b) /\ ((2 < d)%nat -> i2 a = i2 b)).
Proof.
  intros Hd. unfold index_isEqual.
  destruct (Z.eqb_spec (i0 a) (i0 b)), (Z.eqb_spec (i1 a) (i1 b)), (Z.eqb_spec (i2 a) (i2 b));
  dims_cases Hd; simpl; intuition (try lia; try discriminate).
Qed.

Lemma box_isEqual_spec d a b :
  valid_dims d ->
  box_isEqual d a b = true <->
  index_isEqual d (b_from a) (b_from b) = true /\ index_isEqual d (b_to a) (b_to b) = true.
Proof.
  intros. unfold box_isEqual.
  destruct (index_isEqual d (b_from a) (b_from b)), (index_isEqual d (b_to a) (b_to b));
  simpl; intuition.
Qed.

Lemma box_isEqual_sound d a b :
  valid_dims d -> box_isEqual d a b = true -> EqBox d a b.
Proof.
  intros Hd H. apply box_isEqual_spec in H; auto. destruct H as [H1 H2].
  apply index_isEqual_spec in H1, H2; auto.
  intros i. unfold InBox. lia.
Qed.

Lemma box_isEqual_complete d a b :
  valid_dims d -> NonEmpty d a -> EqBox d a b -> box_isEqual d a b = true.
Proof.
  intros Hd Ha H.
  assert (Hb : NonEmpty d b). { destruct Ha as [x Hx]. exists x. apply H, Hx. }
  pose proof (box_within_complete d a b Hd Ha (fun i Hi => proj1 (H i) Hi)) as W1.
  pose proof (box_within_complete d b a Hd Hb (fun i Hi => proj2 (H i) Hi)) as W2.
  apply box_within_unfold in W1, W2; auto.
  rewrite !within1_spec in *.
  destruct Ha as [x Hx], Hb as [y Hy]. unfold InBox in *.
  apply box_isEqual_spec; auto. rewrite !index_isEqual_spec by auto.
  repeat split; intros; try lia.
  all: destruct W1 as [W10 [W11 W12]], W2 as [W20 [W21 W22]];
   repeat match goal with H : ?P -> within1 _ _ _ _ = true, K : ?P |- _ =>
         specialize (H K); rewrite within1_spec in H end; lia.
Qed.

(* --- size --- *)

(* all integers of [f, f+n) *)
Fixpoint zseq (f : Z) (n : nat) : list Z :=
  match n with O => [] | S n' => f :: zseq (f + 1) n' end.

Lemma zseq_In f n x : In x (zseq f n) <-> f <= x < f + Z.of_nat n.
Proof.
  revert f; induction n; intros; simpl; [lia|]. rewrite IHn. lia.
Qed.
Lemma zseq_length f n : length (zseq f n) = n.
Proof. revert f; induction n; intros; simpl; auto. Qed.
Lemma zseq_NoDup f n : NoDup (zseq f n).
Proof.
  revert f; induction n; intros; simpl; constructor; auto.
  rewrite zseq_In. lia.
Qed.


Lemma NoDup_app_intro {A} (l1 l2 : list A) :
  NoDup l1 -> NoDup l2 -> (forall x, In x l1 -> In x l2 -> False) -> NoDup (l1 ++ l2).
Proof.
  induction 1; simpl; intros H2 H3; auto.
  constructor.
  - rewrite in_app_iff. intros [K|K]; [auto|]. exact (H3 x (or_introl eq_refl) K).
  - apply IHNoDup; auto. intros y Y1 Y2. exact (H3 y (or_intror Y1) Y2).
Qed.

Lemma NoDup_list_prod {A B} (l1 : list A) (l2 : list B) :
  NoDup l1 -> NoDup l2 -> NoDup (list_prod l1 l2).
Proof.
  intros H1 H2. induction H1; simpl; [constructor|].
  apply NoDup_app_intro; auto.
  - clear - H2. induction H2; simpl; constructor; auto.
    rewrite in_map_iff. intros [y [E Hy]]. inversion E; subst; auto.
  - intros [a b] K1 K2. apply in_map_iff in K1. destruct K1 as [y [E Hy]].
    inversion E; subst. apply in_prod_iff in K2. tauto.
Qed.

Definition dimlist (b : bool) (f t : Z) : list Z :=
  if b then zseq f (Z.to_nat (t - f)) else [0].

Definition enum (d : nat) (b : box) : list index :=
  map (fun p => mkIdx (fst (fst p)) (snd (fst p)) (snd p))
    (list_prod (list_prod
       (dimlist true (i0 (b_from b)) (i0 (b_to b)))
       (dimlist (Nat.ltb 1 d) (i1 (b_from b)) (i1 (b_to b))))
       (dimlist (Nat.ltb 2 d) (i2 (b_from b)) (i2 (b_to b)))).

Lemma dimlist_In b f t x :
  In x (dimlist b f t) <-> (if b then f <= x < t else x = 0).
Proof. unfold dimlist. destruct b; simpl; [rewrite zseq_In; lia|intuition]. Qed.

Lemma enum_In d b i :
  valid_dims d -> In i (enum d b) <-> InBox d i b /\ canon d i.
Proof.
  intros Hd. unfold enum. rewrite in_map_iff. split.
  - intros [[[x y] z] [E H]]. rewrite !in_prod_iff in H. rewrite !dimlist_In in H.
    subst i. unfold InBox, canon. dims_cases Hd; simpl in *; lia.
  - intros [H1 H2]. exists (i0 i, i1 i, i2 i). split; [destruct i; auto|].
    rewrite !in_prod_iff, !dimlist_In.
    unfold InBox, canon in *. dims_cases Hd; simpl in *; lia.
Qed.

Lemma enum_NoDup d b : NoDup (enum d b).
Proof.
  unfold enum. apply FinFun.Injective_map_NoDup.
  - intros [[a b0] c] [[a' b'] c'] E; simpl in E; congruence.
  - assert (forall bb f t, NoDup (dimlist bb f t)).
    { intros [] f t; simpl; [apply zseq_NoDup|repeat constructor; auto]. }
    repeat apply NoDup_list_prod; auto.
Qed.

Definition ext (b : bool) (f t : Z) : Z := if b then Z.max 0 (t - f) else 1.

Lemma enum_length d b :
  Z.of_nat (length (enum d b)) =
  ext true (i0 (b_from b)) (i0 (b_to b)) *
  ext (Nat.ltb 1 d) (i1 (b_from b)) (i1 (b_to b)) *
  ext (Nat.ltb 2 d) (i2 (b_from b)) (i2 (b_to b)).
Proof.
  unfold enum. rewrite map_length, !prod_length.
  assert (H : forall bb f t, Z.of_nat (length (dimlist bb f t)) = ext bb f t).
  { intros [] f t; simpl; auto. rewrite zseq_length. lia. }
  rewrite !Nat2Z.inj_mul, !H. reflexivity.
Qed.

Lemma enum_HasCount d b :
  valid_dims d -> HasCount d b (Z.of_nat (length (enum d b))).
Proof.
  intros. exists (enum d b). split; [apply enum_NoDup|]. split; [|reflexivity].
  intros i. now apply enum_In.
Qed.

Lemma HasCount_unique d b n m : HasCount d b n -> HasCount d b m -> n = m.
Proof.
  intros [l1 [N1 [I1 E1]]] [l2 [N2 [I2 E2]]]. subst. f_equal.
  apply Nat.le_antisymm; apply NoDup_incl_length; auto; intros x Hx.
  - apply I2, I1, Hx.
  - apply I1, I2, Hx.
Qed.

Lemma two64_pos : 0 < two64. Proof. reflexivity. Qed.

Lemma box_size_ok d b n :
  valid_dims d -> box_size d b = Ok n ->
  exists m, HasCount d b m /\ n = m mod two64.
Proof.
  intros Hd H. exists (Z.of_nat (length (enum d b))). split; [now apply enum_HasCount|].
  rewrite enum_length. pose proof two64_pos as P.
  unfold box_size, ext in *. 
  destruct (i0 (b_to b) >=? i0 (b_from b)) eqn:E0; simpl in H; try discriminate.
  rewrite (Z.max_r 0 (i0 (b_to b) - i0 (b_from b))) by lia.
  dims_cases Hd; simpl in *.
  - inversion H. f_equal. lia.
  - destruct (i1 (b_to b) >=? i1 (b_from b)) eqn:E1; simpl in H; try discriminate.
    rewrite (Z.max_r 0 (i1 (b_to b) - i1 (b_from b))) by lia.
    inversion H. rewrite <- Z.mul_mod by lia. f_equal. lia.
  - destruct (i1 (b_to b) >=? i1 (b_from b)) eqn:E1; simpl in H; try discriminate.
    destruct (i2 (b_to b) >=? i2 (b_from b)) eqn:E2; simpl in H; try discriminate.
    rewrite (Z.max_r 0 (i1 (b_to b) - i1 (b_from b))) by lia.
    rewrite (Z.max_r 0 (i2 (b_to b) - i2 (b_from b))) by lia.
    inversion H. rewrite <- (Z.mul_mod (i0 _ - _)) by lia.
    rewrite <- Z.mul_mod by lia. f_equal.
Qed.

Lemma box_size_total d b :
  valid_dims d -> Ordered d b -> exists n, box_size d b = Ok n.
Proof.
  intros Hd [H0 [H1 H2]]. unfold box_size, cassert.
  destruct (i0 (b_to b) >=? i0 (b_from b)) eqn:E0; [|lia].
  dims_cases Hd; simpl; eauto.
  - destruct (i1 (b_to b) >=? i1 (b_from b)) eqn:E1; [|lia]. eauto.
  - destruct (i1 (b_to b) >=? i1 (b_from b)) eqn:E1; [|lia].
    destruct (i2 (b_to b) >=? i2 (b_from b)) eqn:E2; [|lia]. eauto.
Qed.

Lemma box_size_abort d b :
  valid_dims d -> ~ Ordered d b -> box_size d b = Abort.
Proof.
  intros Hd H. unfold box_size, cassert, Ordered in *.
  destruct (i0 (b_to b) >=? i0 (b_from b)) eqn:E0; auto.
  dims_cases Hd; simpl in *; try lia.
  - destruct (i1 (b_to b) >=? i1 (b_from b)) eqn:E1; auto; lia.
  - destruct (i1 (b_to b) >=? i1 (b_from b)) eqn:E1; auto; simpl.
    destruct (i2 (b_to b) >=? i2 (b_from b)) eqn:E2; auto; lia.
Qed.

(* --- range level --- *)

Lemma index_eqb_eq a b : index_eqb a b = true <-> a = b.
Proof.
  unfold index_eqb. destruct a, b; simpl. rewrite !andb_true_iff, !Z.eqb_eq. split.
  - intros [[-> ->] ->]; auto.
  - intros H; injection H as -> -> ->; auto.
Qed.
Lemma space_eq_eq a b : space_eq a b = true <-> a = b.
Proof.
  unfold space_eq. destruct a as [n d [f t]], b as [n' d' [f' t']]; simpl.
  rewrite !andb_true_iff, !Nat.eqb_eq, !index_eqb_eq. split.
  - intros [[[-> ->] ->] ->]; auto.
  - intros H; injection H as -> -> -> ->; auto.
Qed.
Lemma space_eq_refl s : space_eq s s = true.
Proof. apply space_eq_eq. auto. Qed.

Lemma range_intersect_any : forall g s a b,
  valid_dims (sp_dims s) ->
  match range_intersect g (mkRange (Some s) a) (mkRange (Some s) b) with
  | Ok (Some c) => r_space c = Some s /\
       forall i, InBox (sp_dims s) i (r_box c) <-> InBox (sp_dims s) i a /\ InBox (sp_dims s) i b
  | Ok None => DisjBox (sp_dims s) a b
  | _ => False
  end.
Proof.
  intros g s a b Hd. unfold range_intersect; simpl. rewrite space_eq_refl. simpl.
  destruct (box_intersect_g g (sp_dims s) a b) as [c|] eqn:E; simpl.
  - split; auto. eapply box_intersect_g_some; eauto.
  - intros i. eapply box_intersect_g_none; eauto.
Qed.

Lemma range_intersect_correct : forall g s a b,
  valid_dims (sp_dims s) ->
  NonEmpty (sp_dims s) a -> NonEmpty (sp_dims s) b ->
  (exists c, range_intersect g (mkRange (Some s) a) (mkRange (Some s) b)
             = Ok (Some (mkRange (Some s) c))
      /\ NonEmpty (sp_dims s) c
      /\ forall i, InBox (sp_dims s) i c <-> InBox (sp_dims s) i a /\ InBox (sp_dims s) i b)
  \/ (range_intersect g (mkRange (Some s) a) (mkRange (Some s) b) = Ok None
      /\ DisjBox (sp_dims s) a b).
Proof.
  intros g s a b Hd Ha Hb. unfold range_intersect; simpl. rewrite space_eq_refl. simpl.
  destruct (box_intersect_g g (sp_dims s) a b) as [c|] eqn:E; simpl.
  - left. exists c. split; [reflexivity|]. split.
    + eapply box_intersect_g_nonempty; [exact Ha|exact Hb|exact E].
    + eapply box_intersect_g_some; eauto.
  - right. split; auto. intros i. eapply box_intersect_g_none; eauto.
Qed.

Lemma range_intersect_empty_refuted : exists g s a b c,
  valid_dims (sp_dims s) /\
  range_intersect g (mkRange (Some s) a) (mkRange (Some s) b) = Ok (Some c) /\
  range_isEmpty c = true /\ DisjBox (sp_dims s) a b.
Proof.
  exists zbox, (mkSpace 1 1 (mkBox (mkIdx 0 0 0) (mkIdx 10 0 0))),
    (mkBox (mkIdx 5 0 0) (mkIdx 5 0 0)), (mkBox (mkIdx 0 0 0) (mkIdx 10 0 0)).
  eexists. split; [left; reflexivity|]. split; [reflexivity|]. split; [reflexivity|].
  intros i. unfold InBox; simpl. lia.
Qed.

Lemma range_expand_correct : forall s dst src,
  valid_dims (sp_dims s) ->
  NonEmpty (sp_dims s) dst -> NonEmpty (sp_dims s) src ->
  exists res, range_expand (mkRange (Some s) dst) (mkRange (Some s) src)
              = Ok (mkRange (Some s) res)
    /\ SubBox (sp_dims s) dst res /\ SubBox (sp_dims s) src res
    /\ forall c, SubBox (sp_dims s) dst c -> SubBox (sp_dims s) src c -> SubBox (sp_dims s) res c.
Proof.
  intros s dst src Hd Ha Hb. unfold range_expand; simpl. rewrite space_eq_refl. simpl.
  eexists. split; [reflexivity|]. split; [|split].
  - intros i Hi. apply box_expand_contains; auto.
  - intros i Hi. apply box_expand_contains; auto.
  - intros c H1 H2. apply box_expand_least; auto.
Qed.

Lemma range_isEmpty_correct : forall s b,
  valid_dims (sp_dims s) ->
  (range_isEmpty (mkRange (Some s) b) = true <-> forall i, ~ InBox (sp_dims s) i b).
Proof.
  intros s b Hd. unfold range_isEmpty; simpl. rewrite box_isEmpty_true.
  unfold NonEmpty. firstorder.
Qed.

Lemma range_size_correct : forall s b n,
  valid_dims (sp_dims s) -> Ordered (sp_dims s) b ->
  HasCount (sp_dims s) b n -> n < 2 ^ 64 ->
  range_size (mkRange (Some s) b) = Ok n.
Proof.
  intros s b n Hd Ho Hc Hn. unfold range_size; simpl.
  destruct (box_size_total _ _ Hd Ho) as [m Hm]. rewrite Hm.
  destruct (box_size_ok _ _ _ Hd Hm) as [k [Hk1 Hk2]].
  pose proof (HasCount_unique _ _ _ _ Hc Hk1). subst.
  f_equal. apply Z.mod_small. destruct Hk1 as [l [_ [_ Hl]]]. unfold two64. lia.
Qed.

Lemma range_size_mod : forall s b n m,
  valid_dims (sp_dims s) -> range_size (mkRange (Some s) b) = Ok n ->
  HasCount (sp_dims s) b m -> n = m mod 2 ^ 64.
Proof.
  intros s b n m Hd H Hc. destruct (box_size_ok _ _ _ Hd H) as [k [Hk1 Hk2]].
  pose proof (HasCount_unique _ _ _ _ Hc Hk1). subst. reflexivity.
Qed.

Lemma Ordered_dec d b : valid_dims d -> Ordered d b \/ ~ Ordered d b.
Proof.
  intros Hd. unfold Ordered.
  destruct (Z_le_dec (i0 (b_from b)) (i0 (b_to b)));
  destruct (Z_le_dec (i1 (b_from b)) (i1 (b_to b)));
  destruct (Z_le_dec (i2 (b_from b)) (i2 (b_to b))); dims_cases Hd; lia.
Qed.

Lemma range_size_abort : forall s b,
  valid_dims (sp_dims s) ->
  (range_size (mkRange (Some s) b) = Abort <-> ~ Ordered (sp_dims s) b).
Proof.
  intros s b Hd. unfold range_size; simpl. split.
  - intros H Ho. destruct (box_size_total _ _ Hd Ho) as [m Hm]. congruence.
  - apply box_size_abort; auto.
Qed.

Lemma range_within_sound : forall s a b,
  valid_dims (sp_dims s) ->
  range_within_range (mkRange (Some s) a) (mkRange (Some s) b) = Ok true ->
  SubBox (sp_dims s) a b.
Proof.
  intros s a b Hd. unfold range_within_range; simpl. rewrite space_eq_refl; simpl.
  intros H. inversion H. apply box_within_sound; auto.
Qed.

Lemma range_within_exact : forall s a b,
  valid_dims (sp_dims s) -> NonEmpty (sp_dims s) a ->
  (SubBox (sp_dims s) a b ->
     range_within_range (mkRange (Some s) a) (mkRange (Some s) b) = Ok true) /\
  (~ SubBox (sp_dims s) a b ->
     range_within_range (mkRange (Some s) a) (mkRange (Some s) b) = Ok false).
Proof.
  intros s a b Hd Ha. unfold range_within_range; simpl. rewrite space_eq_refl; simpl.
  split; intros H.
  - f_equal. apply box_within_complete; auto.
  - f_equal. destruct (box_within (sp_dims s) a b) eqn:E; auto.
    exfalso. apply H. apply box_within_sound; auto.
Qed.

Lemma range_within_empty_refuted : exists s a b,
  valid_dims (sp_dims s) /\ SubBox (sp_dims s) a b /\
  range_within_range (mkRange (Some s) a) (mkRange (Some s) b) = Ok false.
Proof.
  exists (mkSpace 1 2 (mkBox (mkIdx 0 0 0) (mkIdx 300 300 0))),
    (mkBox (mkIdx 5 100 0) (mkIdx 5 200 0)), (mkBox (mkIdx 0 0 0) (mkIdx 10 10 0)).
  split; [right; left; reflexivity|]. split; [|reflexivity].
  intros i. unfold InBox; simpl. lia.
Qed.

Lemma range_isEqual_correct : forall s a b,
  valid_dims (sp_dims s) -> NonEmpty (sp_dims s) a ->
  (range_isEqual (mkRange (Some s) a) (mkRange (Some s) b) = true
   <-> EqBox (sp_dims s) a b).
Proof.
  intros s a b Hd Ha. unfold range_isEqual; simpl. rewrite space_eq_refl; simpl.
  split; intros H.
  - apply box_isEqual_sound; auto.
  - apply box_isEqual_complete; auto.
Qed.

Lemma range_within_space_correct : forall s b,
  valid_dims (sp_dims s) -> NonEmpty (sp_dims s) b ->
  (range_within_space (mkRange (Some s) b) s = Ok true <-> SubBox (sp_dims s) b (sp_box s)).
Proof.
  intros s b Hd Hb. unfold range_within_space, space_asrange. split.
  - apply range_within_sound; auto.
  - intros H. apply range_within_exact; auto.
Qed.
