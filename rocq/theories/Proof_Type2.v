From Coq Require Import ZArith List Bool Lia Permutation Floats.SpecFloat ZifyBool ZifyNat.
From Verif Require Import Base Model_Partitioner Model_Transition Model_Mem Model_Type Spec_Type Proof_Type.
Import ListNotations.
Open Scope Z_scope.

Lemma sa_step out p n s : 0 <= n -> 0 <= s -> SameOrApart out p ((n + 1) * s) ->
  SameOrApart (out + s) (p + s) (n * s) /\
  (p + s = out + s \/ p + (n + 1) * s <= out \/ out + s <= p).
Proof.
  unfold SameOrApart. intros Hn Hs [->|[A|A]].
  - auto.
  - split; right; [left|right]; nia.
  - split; right; [right|left]; nia.
Qed.

(* ---- filling ---- *)
Lemma fill_spec n : forall m p bs,
  OnlyChanges p (Z.of_nat n * Z.of_nat (length bs)) m (fill n m p bs) /\
  forall i, 0 <= i < Z.of_nat n ->
    mread (fill n m p bs) (p + i * Z.of_nat (length bs)) (length bs) = bs.
Proof.
  induction n; intros m p bs.
  - split; [|lia]. intros a _. reflexivity.
  - simpl fill. destruct (IHn (mwrite m p bs) (p + Z.of_nat (length bs)) bs) as [C R].
    split.
    + intros a Ha. rewrite C by nia. apply mwrite_out. nia.
    + intros i Hi. destruct (Z.eq_dec i 0) as [->|N].
      * rewrite Z.mul_0_l, Z.add_0_r.
        rewrite (mread_ext (mwrite m p bs)).
        -- apply mread_mwrite_same. auto.
        -- intros a Ha. apply C. lia.
      * replace (p + i * Z.of_nat (length bs)) with (p + Z.of_nat (length bs) + (i - 1) * Z.of_nat (length bs)) by lia.
        apply R. lia.
Qed.

(* ---- the loop ---- *)
Section Loop.
  Context {V : Type} (sz : nat) (ld : list Z -> V) (st : V -> list Z) (f : V -> V -> outcome V).
  Hypothesis Hst : forall v, length (st v) = sz.

  Local Notation el m p i := (ld (mread m (p + i * Z.of_nat sz) sz)).

  Lemma el_step m p i : el m (p + Z.of_nat sz) i = el m p (i + 1).
  Proof. f_equal. f_equal. lia. Qed.

  Lemma el_after m p q bs n i : length bs = sz -> 0 <= i < n ->
    (q + Z.of_nat sz = p + Z.of_nat sz \/ q + (n + 1) * Z.of_nat sz <= p \/ p + Z.of_nat sz <= q) ->
    el (mwrite m p bs) (q + Z.of_nat sz) i = el m q (i + 1).
  Proof.
    intros L Hi C. rewrite mread_mwrite_apart; [apply el_step|]. rewrite L.
    destruct C as [C|[C|C]]; nia.
  Qed.

  Lemma red_loop_ok n : forall m out in1 in2,
    SameOrApart out in1 (Z.of_nat n * Z.of_nat sz) -> SameOrApart out in2 (Z.of_nat n * Z.of_nat sz) ->
    (forall i, 0 <= i < Z.of_nat n -> exists v, f (el m in1 i) (el m in2 i) = Ok v) ->
    exists m', red_loop sz ld st f n m out in1 in2 = Ok m' /\
      OnlyChanges out (Z.of_nat n * Z.of_nat sz) m m' /\
      forall i v, 0 <= i < Z.of_nat n -> f (el m in1 i) (el m in2 i) = Ok v ->
        mread m' (out + i * Z.of_nat sz) sz = st v.
  Proof.
    induction n; intros m out in1 in2 S1 S2 F.
    - exists m. split; [reflexivity|]. split. intros a _; auto. lia.
    - destruct (F 0 ltac:(lia)) as [v0 E0]. rewrite !Z.mul_0_l, !Z.add_0_r in E0.
      simpl red_loop. rewrite E0. cbn [obind].
      rewrite Nat2Z.inj_succ in S1, S2. unfold Z.succ in S1, S2.
      apply sa_step in S1 as [S1 C1]; try lia. apply sa_step in S2 as [S2 C2]; try lia.
      assert (A1 : forall i, 0 <= i < Z.of_nat n -> el (mwrite m out (st v0)) (in1 + Z.of_nat sz) i = el m in1 (i + 1)).
      { intros i Hi. apply (el_after m out in1 (st v0) (Z.of_nat n)); auto. }
      assert (A2 : forall i, 0 <= i < Z.of_nat n -> el (mwrite m out (st v0)) (in2 + Z.of_nat sz) i = el m in2 (i + 1)).
      { intros i Hi. apply (el_after m out in2 (st v0) (Z.of_nat n)); auto. }
      destruct (IHn (mwrite m out (st v0)) (out + Z.of_nat sz) (in1 + Z.of_nat sz) (in2 + Z.of_nat sz) S1 S2) as [m' [E [C R]]].
      { intros i Hi. rewrite A1, A2 by auto. apply F. lia. }
      exists m'. split; [exact E|]. split.
      + intros a Ha. rewrite C by nia. apply mwrite_out. rewrite Hst. nia.
      + intros i v Hi Ev. destruct (Z.eq_dec i 0) as [->|N].
        * rewrite !Z.mul_0_l, !Z.add_0_r in *. assert (v = v0) by congruence. subst v.
          rewrite (mread_ext (mwrite m out (st v0))).
          -- apply mread_mwrite_same. auto.
          -- intros a Ha. apply C. lia.
        * replace (out + i * Z.of_nat sz) with (out + Z.of_nat sz + (i - 1) * Z.of_nat sz) by lia.
          apply R; [lia|]. rewrite A1, A2 by lia. replace (i - 1 + 1) with i by lia. exact Ev.
  Qed.

  Lemma red_loop_ub n : forall m out in1 in2,
    SameOrApart out in1 (Z.of_nat n * Z.of_nat sz) -> SameOrApart out in2 (Z.of_nat n * Z.of_nat sz) ->
    (forall i, 0 <= i < Z.of_nat n -> (exists v, f (el m in1 i) (el m in2 i) = Ok v) \/ f (el m in1 i) (el m in2 i) = UB) ->
    (exists i, 0 <= i < Z.of_nat n /\ f (el m in1 i) (el m in2 i) = UB) ->
    red_loop sz ld st f n m out in1 in2 = UB.
  Proof.
    induction n; intros m out in1 in2 S1 S2 F [k [Hk Ek]].
    - lia.
    - destruct (F 0 ltac:(lia)) as [[v0 E0]|E0]; rewrite !Z.mul_0_l, !Z.add_0_r in E0; simpl red_loop; rewrite E0; cbn [obind]; auto.
      rewrite Nat2Z.inj_succ in S1, S2. unfold Z.succ in S1, S2.
      apply sa_step in S1 as [S1 C1]; try lia. apply sa_step in S2 as [S2 C2]; try lia.
      assert (A1 : forall i, 0 <= i < Z.of_nat n -> el (mwrite m out (st v0)) (in1 + Z.of_nat sz) i = el m in1 (i + 1)).
      { intros i Hi. apply (el_after m out in1 (st v0) (Z.of_nat n)); auto. }
      assert (A2 : forall i, 0 <= i < Z.of_nat n -> el (mwrite m out (st v0)) (in2 + Z.of_nat sz) i = el m in2 (i + 1)).
      { intros i Hi. apply (el_after m out in2 (st v0) (Z.of_nat n)); auto. }
      apply IHn; auto.
      + intros i Hi. rewrite A1, A2 by auto. apply F. lia.
      + destruct (Z.eq_dec k 0) as [->|N].
        * rewrite !Z.mul_0_l, !Z.add_0_r in Ek. congruence.
        * exists (k - 1). split; [lia|]. rewrite A1, A2 by lia. replace (k - 1 + 1) with k by lia. exact Ek.
  Qed.
End Loop.

(* ---- reduction of integer arrays ---- *)
Lemma it_reduce_ok T o g m out in1 in2 count : IntType T -> math_op o = Some g -> 0 <= count ->
  SameOrApart out in1 (count * Z.of_nat (it_size T)) -> SameOrApart out in2 (count * Z.of_nat (it_size T)) ->
  (Strict T -> forall i, 0 <= i < count -> Fits T (g (ielem T m in1 i) (ielem T m in2 i))) ->
  exists m', it_reduce T m (Some out) (Some in1) (Some in2) count o = Ok m' /\
    OnlyChanges out (count * Z.of_nat (it_size T)) m m' /\
    forall i, 0 <= i < count -> Reduced T (g (ielem T m in1 i) (ielem T m in2 i)) (ielem T m' out i).
Proof.
  intros H Eg Hc S1 S2 St. unfold it_reduce, gen_reduce.
  assert (exists f, it_op T o = Some f) as [f Ef] by (destruct o; simpl in *; try discriminate; eauto).
  rewrite Ef.
  assert (Q : forall i, 0 <= i < count -> f (ielem T m in1 i) (ielem T m in2 i) = Ok (it_wrap T (g (ielem T m in1 i) (ielem T m in2 i)))).
  { intros i Hi. apply (it_op_result T o f g); auto; apply load_fits; auto. }
  rewrite <- (Z2Nat.id count Hc) in S1, S2.
  destruct (red_loop_ok (it_size T) (it_load T) (it_store T) f (store_length T) (Z.to_nat count) m out in1 in2 S1 S2) as [m' [E [C R]]].
  { intros i Hi. eexists. apply Q. lia. }
  exists m'. split; [exact E|]. split.
  - rewrite Z2Nat.id in C by auto. exact C.
  - intros i Hi. unfold ielem at 3. rewrite (R i _ ltac:(lia) (Q i Hi)).
    rewrite load_store; auto. apply wrap_reduced; auto. apply wrap_fits; auto.
Qed.

Lemma it_reduce_overflow T o g m out in1 in2 count i : IntType T -> math_op o = Some g ->
  SameOrApart out in1 (count * Z.of_nat (it_size T)) -> SameOrApart out in2 (count * Z.of_nat (it_size T)) ->
  Strict T -> 0 <= i < count -> ~ Fits T (g (ielem T m in1 i) (ielem T m in2 i)) ->
  it_reduce T m (Some out) (Some in1) (Some in2) count o = UB.
Proof.
  intros H Eg S1 S2 St Hi NF. unfold it_reduce, gen_reduce.
  assert (exists f, it_op T o = Some f) as [f Ef] by (destruct o; simpl in *; try discriminate; eauto).
  rewrite Ef. rewrite <- (Z2Nat.id count) in S1, S2 by lia.
  apply red_loop_ub; auto.
  - apply store_length.
  - intros k Hk. destruct (fits_dec T (g (ielem T m in1 k) (ielem T m in2 k)) H) as [F|F].
    + left. eexists. apply (it_op_result T o f g); auto; try apply load_fits; auto.
    + right. apply (it_op_overflow T o f g); auto; apply load_fits; auto.
  - exists i. split; [lia|]. apply (it_op_overflow T o f g); auto; apply load_fits; auto.
Qed.

Lemma it_reduce_unsupported T o m out in1 in2 count : math_op o = None ->
  it_reduce T m (Some out) (Some in1) (Some in2) count o = Abort.
Proof. intros E. destruct o; simpl in E; try discriminate; reflexivity. Qed.

(* ---- initialisation ---- *)
Lemma initval_fits T o v : IntType T -> it_initval T o = Some v -> Fits T v.
Proof.
  intros H E. destruct o; simpl in E; try discriminate; injection E as <-.
  - apply fits_iff; auto. itype_cases H; vm_compute; split; congruence.
  - apply fits_iff; auto. itype_cases H; vm_compute; split; congruence.
  - apply fits_iff; auto. itype_cases H; vm_compute; split; congruence.
  - apply fits_iff; auto. itype_cases H; vm_compute; split; congruence.
  - apply wrap_fits; auto.
  - apply fits_iff; auto. itype_cases H; vm_compute; split; congruence.
Qed.

Lemma it_init_spec T o v m base count : IntType T -> it_initval T o = Some v -> 0 <= count ->
  exists m', it_init T m base count o = Ok m' /\
    OnlyChanges base (count * Z.of_nat (it_size T)) m m' /\
    forall i, 0 <= i < count -> ielem T m' base i = v.
Proof.
  intros H E Hc. unfold it_init. rewrite E. eexists. split; [reflexivity|].
  destruct (fill_spec (Z.to_nat count) m base (it_store T v)) as [C R].
  rewrite store_length, Z2Nat.id in * by auto. split; [exact C|].
  intros i Hi. unfold ielem. rewrite R by lia. apply load_store; auto. eapply initval_fits; eauto.
Qed.

Lemma neutral_ok T o f v x : IntType T -> it_op T o = Some f -> it_initval T o = Some v ->
  o <> RO_Min -> o <> RO_Max -> Fits T x -> f v x = Ok x /\ f x v = Ok x.
Proof.
  intros H Ef Ev N1 N2 Fx. destruct (it_op_some T o f Ef) as [g Eg].
  assert (Fv : Fits T v) by (eapply initval_fits; eauto).
  assert (Gx : g v x = x).
  { destruct o; simpl in Eg, Ev; try discriminate; injection Eg as <-; injection Ev as <-; try congruence.
    - lia.
    - lia.
    - destruct (it_signed T) eqn:S.
      + rewrite wrap_id; auto. apply Z.land_m1_l. apply fits_iff; auto. unfold it_min, it_max. rewrite S.
        pose proof (it_mod_half T H). lia.
      + unfold it_wrap. rewrite S. replace (-1 mod it_mod T) with (Z.ones (8 * Z.of_nat (it_size T))).
        * rewrite Z.land_comm, Z.land_ones by lia. unfold Fits in Fx. rewrite S in Fx. apply Z.mod_small. auto.
        * itype_cases H; vm_compute; auto.
    - apply Z.lor_0_l. }
  assert (Gx2 : g x v = x) by (rewrite (math_comm o g Eg); auto).
  split.
  - rewrite (it_op_result T o f g) by (auto; intros; rewrite Gx; auto). rewrite Gx, wrap_id; auto.
  - rewrite (it_op_result T o f g) by (auto; intros; rewrite Gx2; auto). rewrite Gx2, wrap_id; auto.
Qed.

Lemma minmax_absorbs T o f v x : IntType T -> it_op T o = Some f -> it_initval T o = Some v ->
  o = RO_Min \/ o = RO_Max -> Fits T x -> f v x = Ok v /\ f x v = Ok v.
Proof.
  intros H Ef Ev C Fx. apply fits_iff in Fx; auto.
  destruct C as [->| ->]; simpl in Ef, Ev; injection Ef as <-; injection Ev as <-; split; f_equal.
  - destruct (it_min T <? x) eqn:Q; lia.
  - destruct (x <? it_min T) eqn:Q; lia.
  - destruct (it_max T >? x) eqn:Q; lia.
  - destruct (x >? it_max T) eqn:Q; lia.
Qed.

(* ---- copies ---- *)
Lemma memcpy_ok m dst src n : 0 <= n -> Apart dst src n ->
  exists m', memcpy m dst src n = Ok m' /\ OnlyChanges dst n m m' /\ forall k, 0 <= k < n -> m' (dst + k) = m (src + k).
Proof.
  intros Hn A. unfold memcpy. destruct (n <? 0) eqn:E; [lia|].
  destruct ((n >? 0) && (dst <? src + n) && (src <? dst + n)) eqn:E2; [unfold Apart in A; lia|].
  eexists. split; [reflexivity|]. split.
  - intros a Ha. apply mwrite_out. rewrite mread_length. lia.
  - intros k Hk. rewrite mwrite_in by (rewrite mread_length; lia).
    replace (dst + k - dst) with k by lia. rewrite mread_nth by lia. f_equal. lia.
Qed.

(* ---- floats ---- *)
Lemma SFmul_comm p e a b : SFmul p e a b = SFmul p e b a.
Proof. destruct a, b; simpl; auto; rewrite ?(xorb_comm s), ?(xorb_comm s0); auto.
  rewrite Pos.mul_comm, Z.add_comm. auto. Qed.

Lemma SFadd_comm p e a b : SFadd p e a b = SFadd p e b a.
Proof.
  destruct a, b; simpl; auto; try (destruct s, s0; reflexivity).
  rewrite (Z.min_comm e0 e1). f_equal. apply Z.add_comm.
Qed.

Lemma mod_add_l a b c : 0 < c -> 0 <= b < c -> (a * c + b) mod c = b.
Proof. intros. rewrite Z.add_comm, Z.mod_add by lia. apply Z.mod_small; auto. Qed.
Lemma div_add_l a b c : 0 < c -> 0 <= b < c -> (a * c + b) / c = a.
Proof. intros. rewrite Z.div_add_l by lia. rewrite Z.div_small by auto. lia. Qed.

Lemma ofbits_fields F (s : bool) ex man : FType F ->
  0 <= ex < 2 ^ ft_ebits F -> 0 <= man < 2 ^ ft_mbits F ->
  let z := (if s then 2 ^ (ft_mbits F + ft_ebits F) else 0) + ex * 2 ^ ft_mbits F + man in
  z mod 2 ^ ft_mbits F = man /\ (z / 2 ^ ft_mbits F) mod 2 ^ ft_ebits F = ex /\
  ((z / 2 ^ (ft_mbits F + ft_ebits F)) mod 2 =? 1) = s.
Proof.
  intros HF He Hm z.
  assert (P1 : 0 < 2 ^ ft_mbits F) by (apply Z.pow_pos_nonneg; destruct HF; subst F; vm_compute; congruence).
  assert (P2 : 0 < 2 ^ ft_ebits F) by (apply Z.pow_pos_nonneg; destruct HF; subst F; vm_compute; congruence).
  assert (Q : 2 ^ (ft_mbits F + ft_ebits F) = 2 ^ ft_ebits F * 2 ^ ft_mbits F).
  { rewrite Z.pow_add_r. lia. destruct HF; subst F; vm_compute; congruence. destruct HF; subst F; vm_compute; congruence. }
  set (M := 2 ^ ft_mbits F) in *. set (E := 2 ^ ft_ebits F) in *.
  assert (Z1 : z = ((if s then E else 0) + ex) * M + man) by (unfold z; rewrite Q; destruct s; lia).
  rewrite Z1. rewrite mod_add_l, div_add_l by auto.
  split; auto. split.
  - replace ((if s then E else 0) + ex) with ((if s then 1 else 0) * E + ex) by (destruct s; lia). apply mod_add_l; auto.
  - rewrite Q. rewrite (Z.mul_comm E M), <- Z.div_div by lia. rewrite div_add_l by auto.
    replace ((if s then E else 0) + ex) with ((if s then 1 else 0) * E + ex) by (destruct s; lia).
    rewrite div_add_l by auto. destruct s; reflexivity.
Qed.

Lemma bits_roundtrip F x : FType F -> FVal F x -> ft_ofbits F (ft_tobits F x) = x.
Proof.
  intros HF V.
  assert (G : forall (s : bool) ex man, 0 <= ex < 2 ^ ft_ebits F -> 0 <= man < 2 ^ ft_mbits F ->
    ft_ofbits F ((if s then 2 ^ (ft_mbits F + ft_ebits F) else 0) + ex * 2 ^ ft_mbits F + man) =
    if ex =? 2 ^ ft_ebits F - 1 then (if man =? 0 then S754_infinity s else S754_nan)
    else if ex =? 0 then
      match man with Zpos p => S754_finite s p (ft_emin F) | _ => S754_zero s end
    else match man + 2 ^ ft_mbits F with Zpos p => S754_finite s p (ex - 1 + ft_emin F) | _ => S754_zero s end).
  { intros s ex man He Hm. unfold ft_ofbits. destruct (ofbits_fields F s ex man HF He Hm) as [-> [-> ->]]. auto. }
  assert (P1 : 1 < 2 ^ ft_mbits F) by (destruct HF; subst F; vm_compute; congruence).
  assert (P2 : 2 < 2 ^ ft_ebits F) by (destruct HF; subst F; vm_compute; congruence).
  destruct x; unfold ft_tobits.
  - specialize (G s 0 0). rewrite Z.mul_0_l, !Z.add_0_r in G. rewrite G by lia.
    destruct (0 =? 2 ^ ft_ebits F - 1) eqn:Q; [lia|]. auto.
  - specialize (G s (2 ^ ft_ebits F - 1) 0). rewrite !Z.add_0_r in G. rewrite G by lia.
    rewrite Z.eqb_refl. auto.
  - specialize (G false (2 ^ ft_ebits F - 1) (2 ^ (ft_mbits F - 1))). rewrite Z.add_0_l in G. rewrite G by (split; [lia|]; try lia;
      destruct HF; subst F; vm_compute; split; congruence).
    rewrite Z.eqb_refl. destruct (2 ^ (ft_mbits F - 1) =? 0) eqn:Q; auto.
    destruct HF; subst F; vm_compute in Q; discriminate.
  - simpl in V. destruct (Z.pos m <? 2 ^ ft_mbits F) eqn:Q.
    + specialize (G s 0 (Z.pos m)). rewrite Z.mul_0_l, !Z.add_0_r in G. rewrite G by lia.
      destruct (0 =? 2 ^ ft_ebits F - 1) eqn:Q2; [lia|]. rewrite Z.eqb_refl. destruct V as [[_ ->]|[V _]]; [auto|lia].
    + destruct V as [V|[V1 V2]]; [lia|].
      assert (PP : 2 ^ ft_prec F = 2 * 2 ^ ft_mbits F) by (destruct HF; subst F; vm_compute; auto).
      assert (EE : ft_emax F - ft_prec F - ft_emin F + 1 < 2 ^ ft_ebits F - 1) by (destruct HF; subst F; vm_compute; auto).
      rewrite G by lia.
      destruct (e - ft_emin F + 1 =? 2 ^ ft_ebits F - 1) eqn:Q2; [lia|].
      destruct (e - ft_emin F + 1 =? 0) eqn:Q3; [lia|].
      replace (Z.pos m - 2 ^ ft_mbits F + 2 ^ ft_mbits F) with (Z.pos m) by lia.
      f_equal. lia.
Qed.

Lemma tobits_range F x : FType F -> FVal F x -> 0 <= ft_tobits F x < 256 ^ Z.of_nat (ft_size F).
Proof.
  intros HF V.
  assert (P1 : 1 < 2 ^ ft_mbits F) by (destruct HF; subst F; vm_compute; congruence).
  assert (P2 : 2 < 2 ^ ft_ebits F) by (destruct HF; subst F; vm_compute; congruence).
  assert (Q : 2 ^ (ft_mbits F + ft_ebits F) = 2 ^ ft_ebits F * 2 ^ ft_mbits F) by (destruct HF; subst F; vm_compute; auto).
  assert (R : 256 ^ Z.of_nat (ft_size F) = 2 * (2 ^ ft_ebits F * 2 ^ ft_mbits F)) by (destruct HF; subst F; vm_compute; auto).
  assert (N : 2 ^ (ft_mbits F - 1) < 2 ^ ft_mbits F /\ 0 < 2 ^ (ft_mbits F - 1)) by (destruct HF; subst F; vm_compute; auto).
  assert (PP : 2 ^ ft_prec F = 2 * 2 ^ ft_mbits F) by (destruct HF; subst F; vm_compute; auto).
  assert (EE : ft_emax F - ft_prec F - ft_emin F + 1 < 2 ^ ft_ebits F - 1) by (destruct HF; subst F; vm_compute; auto).
  rewrite R. unfold ft_tobits. rewrite Q.
  set (M := 2 ^ ft_mbits F) in *. set (E := 2 ^ ft_ebits F) in *.
  destruct x.
  - destruct s; nia.
  - destruct s; nia.
  - nia.
  - simpl in V. fold M E in V. destruct (Z.pos m <? M) eqn:C; [destruct s; nia|].
    destruct V as [V|[V1 V2]]; [lia|]. assert (0 <= e - ft_emin F + 1 < E - 1) by lia. destruct s; nia.
Qed.

Lemma ft_load_store F x : FType F -> FVal F x -> ft_load F (ft_store F x) = x.
Proof.
  intros HF V. unfold ft_load, ft_store. rewrite dec_enc. rewrite Z.mod_small by (apply tobits_range; auto).
  apply bits_roundtrip; auto.
Qed.

Lemma ft_initval_FVal F o v : FType F -> ft_initval F o = Some v -> FVal F v.
Proof.
  intros HF E. destruct o; simpl in E; try discriminate; injection E as <-; destruct HF; subst F; vm_compute; auto;
  right; repeat split; congruence.
Qed.

Lemma ft_init_spec F o v m base count : FType F -> ft_initval F o = Some v -> 0 <= count ->
  exists m', ft_init F m base count o = Ok m' /\
    OnlyChanges base (count * Z.of_nat (ft_size F)) m m' /\
    forall i, 0 <= i < count -> felem F m' base i = v.
Proof.
  intros H E Hc. unfold ft_init. rewrite E. eexists. split; [reflexivity|].
  destruct (fill_spec (Z.to_nat count) m base (ft_store F v)) as [C R].
  assert (L : length (ft_store F v) = ft_size F) by apply enc_length.
  rewrite L, Z2Nat.id in * by auto. split; [exact C|].
  intros i Hi. unfold felem. rewrite R by lia. apply ft_load_store; auto. eapply ft_initval_FVal; eauto.
Qed.

Lemma ft_load_FVal F bs : FType F -> FVal F (ft_load F bs).
Proof.
  intros HF. unfold ft_load, ft_ofbits. set (z := dec_le bs).
  assert (P1 : 1 < 2 ^ ft_mbits F) by (destruct HF; subst F; vm_compute; congruence).
  assert (P2 : 2 < 2 ^ ft_ebits F) by (destruct HF; subst F; vm_compute; congruence).
  pose proof (Z.mod_pos_bound z (2 ^ ft_mbits F) ltac:(lia)).
  pose proof (Z.mod_pos_bound (z / 2 ^ ft_mbits F) (2 ^ ft_ebits F) ltac:(lia)).
  set (man := z mod 2 ^ ft_mbits F) in *. set (ex := (z / 2 ^ ft_mbits F) mod 2 ^ ft_ebits F) in *.
  set (sg := _ =? 1).
  destruct (ex =? 2 ^ ft_ebits F - 1) eqn:Q1. { destruct (man =? 0); simpl; auto. }
  destruct (ex =? 0) eqn:Q2.
  - destruct man eqn:Em; simpl; auto. left. split; [lia|auto].
  - destruct (man + 2 ^ ft_mbits F) eqn:Em; simpl; auto. right.
    assert (PP : 2 ^ ft_prec F = 2 * 2 ^ ft_mbits F) by (destruct HF; subst F; vm_compute; auto).
    assert (EE : ft_emax F - ft_prec F - ft_emin F + 1 = 2 ^ ft_ebits F - 2) by (destruct HF; subst F; vm_compute; auto).
    lia.
Qed.
