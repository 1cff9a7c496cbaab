(* The operations of the predefined types work on each element on its own. *)
From Coq Require Import ZArith List Bool Lia ZifyBool ZifyNat.
From Verif Require Import Base ListFacts Model_Space Model_Mem Model_Type Model_Transition Model_Action Model_ActionTrans Model_ActionExec Model_ActionExec2 Model_Net Model_Switch.
From Verif Require Import Spec_Space Spec_Type Spec_ActionTrans Spec_Reduce Spec_Switch.
From Verif Require Import Proof_Type Proof_Type2 Prop_Type Proof_Comb3 Proof_Reduce2 Proof_Reduce4 Proof_Switch9.
Import ListNotations.
Open Scope Z_scope.

Lemma element_len es j l : 0 <= es -> 0 <= j -> (j + 1) * es <= Z.of_nat (length l) -> length (element es j l) = Z.to_nat es.
Proof. intros He Hj H. unfold element. rewrite firstn_length, skipn_length. nia. Qed.
Lemma element_whole es l : 0 <= es -> Z.of_nat (length l) = es -> element es 0 l = l.
Proof. intros He H. unfold element. change (Z.to_nat (0 * es)) with 0%nat. cbn [skipn]. apply firstn_all2. lia. Qed.
Lemma mread_element m p sz j l : 0 <= j -> (j + 1) * Z.of_nat sz <= Z.of_nat (length l) ->
  mread (mwrite m p l) (p + j * Z.of_nat sz) sz = element (Z.of_nat sz) j l.
Proof.
  intros Hj H. apply nth_ext with (d := 0) (d' := 0); [rewrite mread_length, element_len; lia|]. intros i Hi. rewrite mread_length in Hi.
  rewrite mread_nth, mwrite_in by (auto; nia). unfold element. rewrite nth_firstn', nth_skipn' by lia. f_equal. nia.
Qed.

Section Gen.
  Variables (V : Type) (sz : nat) (ld : list Z -> V) (st : V -> list Z) (f : V -> V -> outcome V) (iv : option V).
  Hypothesis Hsz : (0 < sz)%nat.
  Hypothesis Hst : forall v, length (st v) = sz.
  Hypothesis Hf : forall a b, exists v, f (ld a) (ld b) = Ok v.
  Variable red : mem -> option Z -> option Z -> option Z -> Z -> redop -> outcome mem.
  Variable ini : mem -> Z -> Z -> redop -> outcome mem.
  Variable o : redop.
  Hypothesis Hred : forall m out in1 in2 c, red m (Some out) (Some in1) (Some in2) c o = red_loop sz ld st f (Z.to_nat c) m out in1 in2.
  Hypothesis Hini : forall m base c, ini m base c o = match iv with None => Abort | Some v => Ok (fill (Z.to_nat c) m base (st v)) end.
  Let es := Z.of_nat sz.

  Lemma gen_red c j a b v : 0 <= j < c -> Z.of_nat (length a) = c * es -> Z.of_nat (length b) = c * es ->
    f (ld (element es j a)) (ld (element es j b)) = Ok v -> element es j (bytes_red es red o c a b) = st v.
  Proof.
    intros Hj La Lb Hv. unfold bytes_red. rewrite Hred. set (m := mwrite (mwrite (fun _ => 0) 0 a) (c * es) b).
    assert (Hc : Z.of_nat (Z.to_nat c) = c) by lia.
    destruct (red_loop_ok sz ld st f Hst (Z.to_nat c) m 0 0 (c * es)) as (m' & R & _ & Hm).
    - left. auto.
    - right. left. rewrite Hc. fold es. lia.
    - intros i Hi. apply Hf.
    - rewrite R, element_rdb by (unfold es; lia). unfold rdb. replace (bytes es) with sz by (unfold bytes, es; lia). unfold es. apply Hm; [lia|].
      rewrite <- Hv. assert ((j + 1) * es <= c * es) by nia. f_equal; f_equal; unfold m.
      + transitivity (mread (mwrite (fun _ => 0) 0 a) (0 + j * es) sz); [|apply mread_element; fold es; lia].
        apply mread_ext. intros y Hy. apply mwrite_out. left. unfold es in *. nia.
      + apply mread_element; fold es; lia.
  Qed.

  Lemma gen_elementwise pk up : Elementwise (mkDT (bytes_red es red) (bytes_init es ini) pk up) es o.
  Proof.
    split.
    - intros c Hc. apply bytes_sized. unfold es. nia.
    - intros c j a b Hj La Lb. cbn [dt_red]. assert ((j + 1) * es <= c * es) by (unfold es; nia).
      destruct (Hf (element es j a) (element es j b)) as (v & Hv). rewrite (gen_red c j a b v) by auto.
      assert (L1 : Z.of_nat (length (element es j a)) = 1 * es) by (rewrite element_len; unfold es in *; lia).
      assert (L2 : Z.of_nat (length (element es j b)) = 1 * es) by (rewrite element_len; unfold es in *; lia).
      symmetry. rewrite <- (element_whole es (bytes_red es red o 1 _ _)); [|unfold es; lia|].
      + apply gen_red; auto; [lia|]. rewrite !(element_whole es) by (unfold es in *; lia). exact Hv.
      + destruct (bytes_sized es red ini o 1 pk up) as [_ S]; [unfold es; lia|]. cbn [dt_red] in S. rewrite S; auto. lia.
    - intros c j Hj. cbn [dt_init]. unfold bytes_init. rewrite !Hini. destruct iv as [v|]; rewrite element_rdb by (unfold es; lia).
      + destruct (fill_spec (Z.to_nat c) (fun _ => 0) 0 (st v)) as [_ R1]. destruct (fill_spec (Z.to_nat 1) (fun _ => 0) 0 (st v)) as [_ R2]. rewrite Hst in R1, R2. fold es in R1, R2.
        unfold rdb. replace (bytes es) with sz by (unfold bytes, es; lia). replace (bytes (1 * es)) with sz by (unfold bytes, es; lia).
        rewrite R1 by lia. symmetry. apply (R2 0). lia.
      + replace (1 * es) with es by lia. unfold rdb, mread. apply map_ext. reflexivity.
  Qed.
End Gen.

Lemma int_elementwise T o : IntType T -> it_op T o <> None -> TotalOp T o -> Elementwise (int_dt T) (Z.of_nat (it_size T)) o.
Proof.
  intros IT Ho Tot. destruct (it_op T o) as [f|] eqn:Ef; [|congruence]. unfold int_dt.
  apply (gen_elementwise Z (it_size T) (it_load T) (it_store T) f (it_initval T o)).
  - apply it_size_pos; auto.
  - apply store_length.
  - intros a b. destruct (op_total T o f IT Ef Tot (it_load T a) (it_load T b)) as (v & E & _); eauto using load_fits.
  - intros. unfold it_reduce, gen_reduce. rewrite Ef. reflexivity.
  - intros. reflexivity.
Qed.
Lemma float_elementwise F o : FType F -> ft_op F o <> None -> Elementwise (float_dt F) (Z.of_nat (ft_size F)) o.
Proof.
  intros FT Ho. destruct (ft_op F o) as [f|] eqn:Ef; [|congruence]. unfold float_dt.
  apply (gen_elementwise SpecFloat.spec_float (ft_size F) (ft_load F) (ft_store F) f (ft_initval F o)).
  - destruct FT; subst; simpl; lia.
  - intros v. apply enc_length.
  - intros a b. destruct o; simpl in Ef; try discriminate; injection Ef as <-; eauto.
  - intros. unfold ft_reduce, gen_reduce. rewrite Ef. reflexivity.
  - intros. reflexivity.
Qed.
