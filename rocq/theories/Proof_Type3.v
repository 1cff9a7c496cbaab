From Coq Require Import ZArith List Bool Lia Permutation Floats.SpecFloat ZifyBool ZifyNat.
From Verif Require Import Base Model_Partitioner Model_Transition Model_Mem Model_Type Spec_Type Proof_Type Proof_Type2.
Import ListNotations.
Open Scope Z_scope.

Lemma digits_bound p : 2 ^ (Z.pos (digits2_pos p) - 1) <= Z.pos p < 2 ^ Z.pos (digits2_pos p).
Proof.
  induction p; simpl digits2_pos.
  - rewrite Pos2Z.inj_succ. replace (Z.succ (Z.pos (digits2_pos p)) - 1) with (Z.pos (digits2_pos p)) by lia.
    rewrite Z.pow_succ_r by lia. replace (Z.pos (digits2_pos p)) with (Z.succ (Z.pos (digits2_pos p) - 1)) at 1 by lia.
    rewrite Z.pow_succ_r by lia. lia.
  - rewrite Pos2Z.inj_succ. replace (Z.succ (Z.pos (digits2_pos p)) - 1) with (Z.pos (digits2_pos p)) by lia.
    rewrite Z.pow_succ_r by lia. replace (Z.pos (digits2_pos p)) with (Z.succ (Z.pos (digits2_pos p) - 1)) at 1 by lia.
    rewrite Z.pow_succ_r by lia. lia.
  - vm_compute. split; congruence.
Qed.

Lemma fexp_FVal F s m e : FType F -> FVal F (S754_finite s m e) ->
  fexp (ft_prec F) (ft_emax F) (Z.pos (digits2_pos m) + e) = e.
Proof.
  intros HF V. simpl in V. unfold fexp, SpecFloat.emin. pose proof (digits_bound m) as D.
  set (d := Z.pos (digits2_pos m)) in *.
  assert (Hp : ft_prec F = ft_mbits F + 1) by (unfold ft_mbits; lia).
  destruct V as [[V1 ->]|[V1 V2]].
  - assert (d - 1 < ft_mbits F). { apply (Z.pow_lt_mono_r_iff 2); try lia. destruct HF; subst F; vm_compute; congruence. }
    unfold ft_emin. lia.
  - assert (d = ft_prec F).
    { assert (d - 1 < ft_prec F). { apply (Z.pow_lt_mono_r_iff 2); try lia. destruct HF; subst F; vm_compute; congruence. }
      assert (ft_mbits F < d). { apply (Z.pow_lt_mono_r_iff 2); try lia. }
      lia. }
    unfold ft_emin in V2. lia.
Qed.

Lemma mul_one_shift (n : nat) (m : positive) : Z.pos m * 2 ^ Z.of_nat n = Z.pos (Nat.iter n xO m).
Proof.
  induction n; simpl Nat.iter. rewrite Z.mul_1_r; auto.
  rewrite Nat2Z.inj_succ, Z.pow_succ_r by lia. lia.
Qed.

Lemma SFmul_one_l F s m e : FType F -> FVal F (S754_finite s m e) ->
  SFmul (ft_prec F) (ft_emax F) (ft_one F) (S754_finite s m e) = S754_finite s m e.
Proof.
  intros HF V. pose proof (fexp_FVal F s m e HF V) as X.
  assert (EB : (e <=? ft_emax F - ft_prec F) = true).
  { simpl in V. destruct V as [[_ ->]|[_ V]]; [destruct HF; subst F; vm_compute; auto|lia]. }
  unfold ft_one. unfold SFmul. rewrite xorb_false_l. unfold binary_round_aux, shr_fexp.
  assert (Q : exists n, ft_mbits F = Z.of_nat n /\ Z.pos (Z.to_pos (2 ^ ft_mbits F) * m) = Z.pos (Nat.iter n xO m) /\
    digits2_pos (Z.to_pos (2 ^ ft_mbits F) * m) = (digits2_pos m + Z.to_pos (ft_mbits F))%positive /\
    iter_pos shr_1 (Z.to_pos (ft_mbits F)) (shr_record_of_loc (Z.pos (Z.to_pos (2 ^ ft_mbits F) * m)) loc_Exact) = shr_record_of_loc (Z.pos m) loc_Exact).
  { assert (G : forall n, 0 < Z.of_nat n -> (Z.to_pos (2 ^ Z.of_nat n) * m)%positive = Nat.iter n xO m).
    { intros n Hn. apply Pos2Z.inj. rewrite <- mul_one_shift, Pos2Z.inj_mul, Z2Pos.id. lia.
      apply Z.pow_pos_nonneg; lia. }
    assert (D : forall n, (0 < n)%nat -> digits2_pos (Nat.iter n xO m) = (digits2_pos m + Pos.of_nat n)%positive).
    { induction n; intros Hn; [lia|]. destruct n. simpl. lia. simpl Nat.iter in *. simpl digits2_pos in *. rewrite IHn by lia. lia. }
    destruct HF; subst F.
    - exists 52%nat. change (ft_mbits T_double) with (Z.of_nat 52). rewrite (G 52%nat) by lia.
      split; auto. split; auto. split. rewrite D by lia. reflexivity. reflexivity.
    - exists 23%nat. change (ft_mbits T_float) with (Z.of_nat 23). rewrite (G 23%nat) by lia.
      split; auto. split; auto. split. rewrite D by lia. reflexivity. reflexivity. }
  destruct Q as [n [Qn [Q1 [Q2 Q3]]]].
  assert (P : 0 < ft_mbits F) by (destruct HF; subst F; vm_compute; auto).
  unfold Zdigits2 at 1. rewrite Q2.
  assert (S1 : fexp (ft_prec F) (ft_emax F) (Z.pos (digits2_pos m + Z.to_pos (ft_mbits F)) + (- ft_mbits F + e)) - (- ft_mbits F + e)
     = Z.pos (Z.to_pos (ft_mbits F))).
  { rewrite Pos2Z.inj_add, Z2Pos.id by auto.
    replace (Z.pos (digits2_pos m) + ft_mbits F + (- ft_mbits F + e)) with (Z.pos (digits2_pos m) + e) by lia.
    rewrite X. lia. }
  rewrite S1. unfold shr at 1. rewrite Q3.
  cbn [shr_record_of_loc shr_m loc_of_shr_record round_nearest_even].
  rewrite Z2Pos.id by auto. replace (- ft_mbits F + e + ft_mbits F) with e by lia.
  unfold Zdigits2. rewrite X, Z.sub_diag. cbn [shr shr_m].
  change (Zle_bool e (ft_emax F - ft_prec F)) with (e <=? ft_emax F - ft_prec F). rewrite EB. auto.
Qed.

Lemma ft_one_neutral F x : FType F -> FVal F x ->
  SFmul (ft_prec F) (ft_emax F) (ft_one F) x = x /\ SFmul (ft_prec F) (ft_emax F) x (ft_one F) = x.
Proof.
  intros HF V. rewrite (SFmul_comm _ _ x).
  assert (SFmul (ft_prec F) (ft_emax F) (ft_one F) x = x); [|auto].
  destruct x; try (destruct s); try reflexivity; apply SFmul_one_l; auto.
Qed.

Lemma ft_zero_neutral F x : x <> S754_zero true ->
  SFadd (ft_prec F) (ft_emax F) (S754_zero false) x = x /\ SFadd (ft_prec F) (ft_emax F) x (S754_zero false) = x.
Proof.
  intros N. rewrite (SFadd_comm _ _ x). assert (SFadd (ft_prec F) (ft_emax F) (S754_zero false) x = x); [|auto].
  destruct x; auto. destruct s; [congruence|auto].
Qed.

(* reduction of float arrays *)
Lemma ft_reduce_ok F o f m out in1 in2 count : FType F -> ft_op F o = Some f -> 0 <= count ->
  SameOrApart out in1 (count * Z.of_nat (ft_size F)) -> SameOrApart out in2 (count * Z.of_nat (ft_size F)) ->
  exists m', ft_reduce F m (Some out) (Some in1) (Some in2) count o = Ok m' /\
    OnlyChanges out (count * Z.of_nat (ft_size F)) m m' /\
    forall i v, 0 <= i < count -> f (felem F m in1 i) (felem F m in2 i) = Ok v ->
       mread m' (out + i * Z.of_nat (ft_size F)) (ft_size F) = ft_store F v.
Proof.
  intros H Ef Hc S1 S2. unfold ft_reduce, gen_reduce. rewrite Ef.
  rewrite <- (Z2Nat.id count Hc) in S1, S2.
  destruct (red_loop_ok (ft_size F) (ft_load F) (ft_store F) f (fun v => enc_length _ _) (Z.to_nat count) m out in1 in2 S1 S2) as [m' [E [C R]]].
  { intros i Hi. destruct o; simpl in Ef; try discriminate; injection Ef as <-; eauto. }
  exists m'. split; [exact E|]. rewrite Z2Nat.id in C by auto. split; [exact C|].
  intros i v Hi. apply R. lia.
Qed.

Lemma SFltb_asym a b : SFltb a b = true -> SFltb b a = false.
Proof.
  unfold SFltb, SFcompare. destruct a as [sa|sa| |sa ma ea], b as [sb|sb| |sb mb eb]; try destruct sa; try destruct sb; try discriminate; auto;
  rewrite (Z.compare_antisym ea eb); destruct (ea ?= eb) eqn:E; simpl; try discriminate; auto;
  change (Pcompare ma mb Eq) with (ma ?= mb)%positive; change (Pcompare mb ma Eq) with (mb ?= ma)%positive;
  rewrite (Pos.compare_antisym ma mb); destruct (ma ?= mb)%positive; simpl; try discriminate; auto.
Qed.
Lemma SFltb_irrefl a : SFltb a a = false.
Proof. destruct (SFltb a a) eqn:E; auto. apply SFltb_asym in E as E'. congruence. Qed.
