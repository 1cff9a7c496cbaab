From Coq Require Import ZArith List Bool Lia Permutation Floats.SpecFloat ZifyBool ZifyNat.
From Verif Require Import Base Model_Partitioner Model_Transition Model_Mem Model_Type Spec_Type.
Import ListNotations.
Open Scope Z_scope.

(* ---- memory ---- *)
Lemma mread_length m p n : length (mread m p n) = n.
Proof. unfold mread. rewrite map_length, seq_length. auto. Qed.

Lemma mread_nth m p n k : (k < n)%nat -> nth k (mread m p n) 0 = m (p + Z.of_nat k).
Proof.
  intros H. unfold mread.
  rewrite (nth_indep _ 0 (m (p + Z.of_nat 0))) by (rewrite map_length, seq_length; auto).
  rewrite (map_nth (fun k => m (p + Z.of_nat k)) (seq 0 n) 0%nat k), seq_nth by auto. auto.
Qed.

Lemma mread_ext m m' p n : (forall a, p <= a < p + Z.of_nat n -> m' a = m a) -> mread m' p n = mread m p n.
Proof. intros H. unfold mread. apply map_ext_in. intros k Hk. apply in_seq in Hk. apply H. lia. Qed.

Lemma mwrite_out m p bs a : a < p \/ p + Z.of_nat (length bs) <= a -> mwrite m p bs a = m a.
Proof.
  intros H. unfold mwrite. destruct ((p <=? a) && (a <? p + Z.of_nat (length bs))) eqn:E; auto. lia.
Qed.

Lemma mwrite_in m p bs a : p <= a < p + Z.of_nat (length bs) -> mwrite m p bs a = nth (Z.to_nat (a - p)) bs 0.
Proof.
  intros H. unfold mwrite. destruct ((p <=? a) && (a <? p + Z.of_nat (length bs))) eqn:E; auto. lia.
Qed.

Lemma mread_mwrite_same m p bs n : n = length bs -> mread (mwrite m p bs) p n = bs.
Proof.
  intros ->. apply nth_ext with (d := 0) (d' := 0).
  - apply mread_length.
  - rewrite mread_length. intros k Hk. rewrite mread_nth by auto. rewrite mwrite_in by lia.
    f_equal. lia.
Qed.

Lemma mread_mwrite_apart m p bs q n :
  q + Z.of_nat n <= p \/ p + Z.of_nat (length bs) <= q -> mread (mwrite m p bs) q n = mread m q n.
Proof. intros H. apply mread_ext. intros a Ha. apply mwrite_out. lia. Qed.

Lemma mread_bytes m p n : Bytes m -> Forall (fun b => 0 <= b < 256) (mread m p n).
Proof. intros B. apply Forall_forall. intros x Hx. unfold mread in Hx. apply in_map_iff in Hx. destruct Hx as [k [<- _]]. apply B. Qed.

Lemma mwrite_bytes m p bs : Bytes m -> Forall (fun b => 0 <= b < 256) bs -> Bytes (mwrite m p bs).
Proof.
  intros B F a. unfold mwrite. destruct ((p <=? a) && (a <? p + Z.of_nat (length bs))) eqn:E; auto.
  rewrite Forall_forall in F. apply F. apply nth_In. lia.
Qed.

(* ---- encoding ---- *)
Lemma pow256 n : 2 ^ (8 * Z.of_nat n) = 256 ^ Z.of_nat n.
Proof. rewrite Z.pow_mul_r by lia. auto. Qed.

Lemma pow256_S n : 256 ^ Z.of_nat (S n) = 256 * 256 ^ Z.of_nat n.
Proof. rewrite Nat2Z.inj_succ, Z.pow_succ_r by lia. auto. Qed.

Lemma pow256_pos n : 0 < 256 ^ Z.of_nat n.
Proof. apply Z.pow_pos_nonneg; lia. Qed.

Lemma enc_length n z : length (enc_le n z) = n.
Proof. revert z; induction n; simpl; auto. Qed.

Lemma enc_bytes n z : Forall (fun b => 0 <= b < 256) (enc_le n z).
Proof. revert z; induction n; simpl; constructor; auto. apply Z.mod_pos_bound. lia. Qed.

Lemma dec_enc n z : dec_le (enc_le n z) = z mod 256 ^ Z.of_nat n.
Proof.
  revert z; induction n; intros z.
  - simpl. rewrite Z.mod_1_r. auto.
  - change (dec_le (enc_le (S n) z)) with (z mod 256 + 256 * dec_le (enc_le n (z / 256))).
    rewrite IHn, pow256_S. rewrite Z.rem_mul_r; auto. lia. pose proof (pow256_pos n). lia.
Qed.

Lemma dec_range l : Forall (fun b => 0 <= b < 256) l -> 0 <= dec_le l < 256 ^ Z.of_nat (length l).
Proof.
  induction 1.
  - simpl. lia.
  - change (dec_le (x :: l)) with (x + 256 * dec_le l). simpl length. rewrite pow256_S. nia.
Qed.

(* ---- the integer types ---- *)
Ltac itype_cases H := unfold IntType in H; simpl in H;
  destruct H as [<-|[<-|[<-|[<-|[<-|[<-|[]]]]]]].

Lemma it_mod_half T : IntType T -> it_mod T = 2 * (it_mod T / 2) /\ 0 < it_mod T / 2.
Proof. intros H. itype_cases H; vm_compute; auto. Qed.

Lemma fits_iff T z : IntType T -> (Fits T z <-> it_min T <= z <= it_max T).
Proof.
  intros H. itype_cases H; unfold Fits, it_min, it_max;
  match goal with |- context [it_mod ?T] => let v := eval vm_compute in (it_mod T) in change (it_mod T) with v end; simpl; lia.
Qed.

Lemma wrap_fits T z : IntType T -> Fits T (it_wrap T z).
Proof.
  intros H. apply fits_iff; auto. unfold it_min, it_max, it_wrap.
  pose proof (it_mod_half T H) as [E P]. pose proof (Z.mod_pos_bound z (it_mod T) ltac:(lia)).
  pose proof (Z.mod_pos_bound (z + it_mod T / 2) (it_mod T) ltac:(lia)).
  destruct (it_signed T); lia.
Qed.

Lemma wrap_id T z : IntType T -> Fits T z -> it_wrap T z = z.
Proof.
  intros H F. apply fits_iff in F; auto. unfold it_min, it_max in F. unfold it_wrap.
  pose proof (it_mod_half T H) as [E P].
  destruct (it_signed T); rewrite Z.mod_small; lia.
Qed.

Lemma wrap_mod T z : IntType T -> it_wrap T z mod it_mod T = z mod it_mod T.
Proof.
  intros H. unfold it_wrap. pose proof (it_mod_half T H) as [E P].
  destruct (it_signed T).
  - rewrite Zminus_mod_idemp_l. f_equal. lia.
  - apply Z.mod_mod. lia.
Qed.

Lemma wrap_eq T a b : IntType T -> a mod it_mod T = b mod it_mod T -> it_wrap T a = it_wrap T b.
Proof.
  intros H Q. unfold it_wrap. pose proof (it_mod_half T H) as [E P].
  destruct (it_signed T); auto.
  rewrite <- (Zplus_mod_idemp_l a), Q, Zplus_mod_idemp_l. auto.
Qed.

Lemma wrap_reduced T z : IntType T -> Reduced T z (it_wrap T z).
Proof. intros H. split. apply wrap_fits; auto. apply wrap_mod; auto. Qed.

Lemma reduced_wrap T z r : IntType T -> Reduced T z r -> r = it_wrap T z.
Proof.
  intros H [F Q]. rewrite <- (wrap_id T r) by auto. apply wrap_eq; auto.
Qed.

Lemma load_fits T bs : IntType T -> Fits T (it_load T bs).
Proof. intros. apply wrap_fits; auto. Qed.

Lemma load_store T v : IntType T -> Fits T v -> it_load T (it_store T v) = v.
Proof.
  intros H F. unfold it_load, it_store. rewrite dec_enc.
  rewrite <- (wrap_id T v) at 2 by auto. apply wrap_eq; auto.
  unfold it_mod. rewrite pow256. apply Z.mod_mod. pose proof (pow256_pos (it_size T)). lia.
Qed.

Lemma store_length T v : length (it_store T v) = it_size T.
Proof. apply enc_length. Qed.

(* bitwise operations stay in range *)
Lemma signed_range_shiftr n z : 0 <= n -> (- 2 ^ n <= z < 2 ^ n <-> Z.shiftr z n = 0 \/ Z.shiftr z n = -1).
Proof.
  intros Hn. rewrite Z.shiftr_div_pow2 by auto. assert (0 < 2 ^ n) by (apply Z.pow_pos_nonneg; lia).
  split.
  - intros R. destruct (Z_lt_le_dec z 0).
    + right. symmetry. apply Z.div_unique with (r := z + 2 ^ n); lia.
    + left. apply Z.div_small. lia.
  - intros R. pose proof (Z.div_mod z (2 ^ n) ltac:(lia)). pose proof (Z.mod_pos_bound z (2 ^ n) ltac:(lia)).
    destruct R as [R|R]; rewrite R in *; lia.
Qed.

Lemma unsigned_range_shiftr n z : 0 <= n -> (0 <= z < 2 ^ n <-> Z.shiftr z n = 0).
Proof.
  intros Hn. rewrite Z.shiftr_div_pow2 by auto. assert (0 < 2 ^ n) by (apply Z.pow_pos_nonneg; lia).
  split.
  - intros R. apply Z.div_small. lia.
  - intros R. pose proof (Z.div_mod z (2 ^ n) ltac:(lia)). pose proof (Z.mod_pos_bound z (2 ^ n) ltac:(lia)).
    rewrite R in *. lia.
Qed.

Lemma fits_lor T a b : IntType T -> Fits T a -> Fits T b -> Fits T (Z.lor a b).
Proof.
  intros H. assert (S : (0 < it_size T)%nat) by (itype_cases H; simpl; lia).
  unfold Fits. destruct (it_signed T).
  - rewrite !signed_range_shiftr by lia. rewrite Z.shiftr_lor.
    intros [->| ->] [->| ->]; simpl; auto.
  - rewrite !unsigned_range_shiftr by lia. rewrite Z.shiftr_lor. intros -> ->. auto.
Qed.

Lemma fits_land T a b : IntType T -> Fits T a -> Fits T b -> Fits T (Z.land a b).
Proof.
  intros H. assert (S : (0 < it_size T)%nat) by (itype_cases H; simpl; lia).
  unfold Fits. destruct (it_signed T).
  - rewrite !signed_range_shiftr by lia. rewrite Z.shiftr_land.
    intros [->| ->] [->| ->]; simpl; auto.
  - rewrite !unsigned_range_shiftr by lia. rewrite Z.shiftr_land. intros -> ->. auto.
Qed.

(* ---- single operation ---- *)
Lemma it_op_some T o f : it_op T o = Some f -> exists g, math_op o = Some g.
Proof. destruct o; simpl; intros H; try discriminate; eauto. Qed.

Lemma strict_iff T : IntType T -> (Strict T <-> (Nat.ltb (it_size T) 4 = false /\ it_signed T = true)).
Proof.
  intros H. unfold Strict. itype_cases H; simpl; split; intros Q; auto; try (destruct Q; discriminate);
  destruct Q as [Q|Q]; discriminate.
Qed.

(* result of one application *)
Lemma it_op_result T o f g a b : IntType T -> it_op T o = Some f -> math_op o = Some g ->
  Fits T a -> Fits T b ->
  (Strict T -> Fits T (g a b)) -> f a b = Ok (it_wrap T (g a b)).
Proof.
  intros H Ef Eg Fa Fb St.
  destruct o; simpl in Ef, Eg; try discriminate; injection Ef as <-; injection Eg as <-.
  - unfold it_arith. destruct (Nat.ltb (it_size T) 4) eqn:Q; auto. destruct (it_signed T) eqn:S; auto.
    assert (F : Fits T (a + b)) by (apply St, strict_iff; auto).
    rewrite wrap_id by auto. apply fits_iff in F; auto.
    destruct ((it_min T <=? a + b) && (a + b <=? it_max T)) eqn:R; auto. lia.
  - unfold it_arith. destruct (Nat.ltb (it_size T) 4) eqn:Q; auto. destruct (it_signed T) eqn:S; auto.
    assert (F : Fits T (a * b)) by (apply St, strict_iff; auto).
    rewrite wrap_id by auto. apply fits_iff in F; auto.
    destruct ((it_min T <=? a * b) && (a * b <=? it_max T)) eqn:R; auto. lia.
  - rewrite wrap_id; auto. f_equal. destruct (a <? b) eqn:R; lia.
    unfold Z.min. destruct (a ?= b); auto.
  - rewrite wrap_id; auto. f_equal. destruct (a >? b) eqn:R; lia.
    unfold Z.max. destruct (a ?= b); auto.
  - rewrite wrap_id; auto. apply fits_land; auto.
  - rewrite wrap_id; auto. apply fits_lor; auto.
Qed.

Lemma it_op_overflow T o f g a b : IntType T -> it_op T o = Some f -> math_op o = Some g ->
  Fits T a -> Fits T b -> Strict T -> ~ Fits T (g a b) -> f a b = UB.
Proof.
  intros H Ef Eg Fa Fb St NF. apply strict_iff in St as [S1 S2]; auto.
  destruct o; simpl in Ef, Eg; try discriminate; injection Ef as <-; injection Eg as <-.
  - unfold it_arith. rewrite S1, S2. rewrite fits_iff in NF by auto.
    destruct ((it_min T <=? a + b) && (a + b <=? it_max T)) eqn:R; auto. lia.
  - unfold it_arith. rewrite S1, S2. rewrite fits_iff in NF by auto.
    destruct ((it_min T <=? a * b) && (a * b <=? it_max T)) eqn:R; auto. lia.
  - exfalso. apply NF. unfold Z.min. destruct (a ?= b); auto.
  - exfalso. apply NF. unfold Z.max. destruct (a ?= b); auto.
  - exfalso. apply NF. apply fits_land; auto.
  - exfalso. apply NF. apply fits_lor; auto.
Qed.

(* decidability of Fits *)
Lemma fits_dec T z : IntType T -> Fits T z \/ ~ Fits T z.
Proof. intros H. rewrite fits_iff by auto. lia. Qed.

Lemma it_op_inv T o f g a b r : IntType T -> it_op T o = Some f -> math_op o = Some g ->
  Fits T a -> Fits T b -> f a b = Ok r -> (Strict T -> Fits T (g a b)) /\ r = it_wrap T (g a b).
Proof.
  intros H Ef Eg Fa Fb E.
  destruct (fits_dec T (g a b) H) as [F|F].
  - split; auto. rewrite (it_op_result T o f g) in E by auto. congruence.
  - assert (NS : ~ Strict T). { intros S. rewrite (it_op_overflow T o f g) in E by auto. discriminate. }
    split; [tauto|]. rewrite (it_op_result T o f g) in E by tauto. congruence.
Qed.

(* ---- order independence ---- *)
(* combining modulo wrap *)
Definition wop (T : itype) (g : Z -> Z -> Z) a b := it_wrap T (g a b).

Lemma math_comm o g : math_op o = Some g -> forall a b, g a b = g b a.
Proof.
  destruct o; simpl; intros E; try discriminate; injection E as <-; intros.
  apply Z.add_comm. apply Z.mul_comm. apply Z.min_comm. apply Z.max_comm. apply Z.land_comm. apply Z.lor_comm.
Qed.

Lemma math_fits T o g a b : IntType T -> math_op o = Some g -> o <> RO_Sum -> o <> RO_Prod ->
  Fits T a -> Fits T b -> Fits T (g a b).
Proof.
  intros H E N1 N2 Fa Fb. destruct o; simpl in E; try discriminate; injection E as <-; try congruence.
  unfold Z.min; destruct (a ?= b); auto.
  unfold Z.max; destruct (a ?= b); auto.
  apply fits_land; auto. apply fits_lor; auto.
Qed.

Lemma wop_assoc T o g a b c : IntType T -> math_op o = Some g -> Fits T a -> Fits T b -> Fits T c ->
  wop T g (wop T g a b) c = wop T g a (wop T g b c).
Proof.
  intros H E Fa Fb Fc. unfold wop.
  assert (C : o = RO_Sum \/ o = RO_Prod \/ (o <> RO_Sum /\ o <> RO_Prod)).
  { destruct o; auto; right; right; split; discriminate. }
  destruct C as [->|[->|[N1 N2]]].
  - simpl in E. injection E as <-. apply wrap_eq; auto.
    rewrite <- Zplus_mod_idemp_l, wrap_mod, Zplus_mod_idemp_l by auto.
    rewrite <- (Zplus_mod_idemp_r (it_wrap T (b + c))), wrap_mod, Zplus_mod_idemp_r by auto.
    f_equal. lia.
  - simpl in E. injection E as <-. apply wrap_eq; auto.
    rewrite <- Zmult_mod_idemp_l, wrap_mod, Zmult_mod_idemp_l by auto.
    rewrite <- (Zmult_mod_idemp_r (it_wrap T (b * c))), wrap_mod, Zmult_mod_idemp_r by auto.
    f_equal. lia.
  - rewrite (wrap_id T (g a b)), (wrap_id T (g b c)) by (auto using (math_fits T o)).
    f_equal. destruct o; simpl in E; try discriminate; injection E as <-; try congruence.
    symmetry; apply Z.min_assoc. symmetry; apply Z.max_assoc.
    symmetry; apply Z.land_assoc. symmetry; apply Z.lor_assoc.
Qed.

Lemma wop_comm T o g a b : math_op o = Some g -> wop T g a b = wop T g b a.
Proof. intros E. unfold wop. rewrite (math_comm o g E). auto. Qed.

(* a canonical value for a non-empty list *)
Definition foldw T g (l : list Z) : option Z :=
  match l with [] => None | a :: l' => Some (fold_left (wop T g) l' a) end.

Lemma wop_fits T g a b : IntType T -> Fits T (wop T g a b).
Proof. intros. apply wrap_fits; auto. Qed.

Lemma fold_fits T g l a : IntType T -> Fits T a -> Fits T (fold_left (wop T g) l a).
Proof. intros H. revert a; induction l; simpl; intros; auto. apply IHl. apply wop_fits; auto. Qed.

Lemma fold_wop T o g l a b : IntType T -> math_op o = Some g -> Fits T a -> Fits T b -> Forall (Fits T) l ->
  fold_left (wop T g) l (wop T g a b) = wop T g a (fold_left (wop T g) l b).
Proof.
  intros H E Fa Fb Fl. revert b Fb; induction Fl; simpl; intros b Fb; auto.
  rewrite (wop_assoc T o g) by auto. apply IHFl. apply wop_fits; auto.
Qed.

Lemma foldw_app T o g l1 l2 a b : IntType T -> math_op o = Some g -> Forall (Fits T) l1 -> Forall (Fits T) l2 ->
  foldw T g l1 = Some a -> foldw T g l2 = Some b -> foldw T g (l1 ++ l2) = Some (wop T g a b).
Proof.
  intros H E F1 F2. destruct l1 as [|x l1]; [discriminate|]. destruct l2 as [|y l2]; [discriminate|].
  simpl. intros Q1 Q2. injection Q1 as <-. injection Q2 as <-.
  inversion F1; inversion F2; subst. rewrite fold_left_app. simpl. f_equal.
  apply (fold_wop T o g); auto. apply fold_fits; auto.
Qed.

Lemma foldw_perm T o g l1 l2 : IntType T -> math_op o = Some g -> Forall (Fits T) l1 -> Permutation l1 l2 ->
  foldw T g l1 = foldw T g l2.
Proof.
  intros H E F P. revert F. induction P; intros F; auto.
  - inversion F; subst. specialize (IHP H3).
    destruct l as [|y l], l' as [|y' l']; auto; try discriminate.
    + simpl in *. injection IHP as IHP. f_equal.
      inversion H3; subst.
      assert (F' : Forall (Fits T) (y' :: l')). { eapply Permutation_Forall; eauto. }
      inversion F'; subst.
      rewrite !(fold_wop T o g) by auto. congruence.
  - inversion F; subst. inversion H3; subst. simpl. f_equal. rewrite (wop_comm T o g); auto.
  - rewrite IHP1 by auto. apply IHP2. eapply Permutation_Forall; eauto.
Qed.

Lemma leaves_nonempty {V} (t : tree V) : leaves t <> [].
Proof. induction t; simpl. discriminate. destruct (leaves t1); [congruence|discriminate]. Qed.

Lemma tree_value T o f g t x : IntType T -> it_op T o = Some f -> math_op o = Some g ->
  Forall (Fits T) (leaves t) -> combine_tree f t = Ok x -> Fits T x /\ foldw T g (leaves t) = Some x.
Proof.
  intros H Ef Eg. revert x. induction t; simpl; intros x F E.
  - injection E as <-. inversion F; subst. auto.
  - apply obind_ok in E as [a [Ea E]]. apply obind_ok in E as [b [Eb E]].
    apply Forall_app in F as [F1 F2].
    destruct (IHt1 a F1 Ea) as [Fa Q1]. destruct (IHt2 b F2 Eb) as [Fb Q2].
    apply (it_op_inv T o f g) in E as [_ ->]; auto.
    split. apply wrap_fits; auto. apply (foldw_app T o g); auto.
Qed.

Lemma tree_order T o f t1 t2 x y : IntType T -> it_op T o = Some f ->
  Forall (Fits T) (leaves t1) -> Permutation (leaves t1) (leaves t2) ->
  combine_tree f t1 = Ok x -> combine_tree f t2 = Ok y -> x = y.
Proof.
  intros H Ef F P E1 E2. destruct (it_op_some T o f Ef) as [g Eg].
  apply (tree_value T o f g) in E1 as [_ E1]; auto.
  apply (tree_value T o f g) in E2 as [_ E2]; auto; [|eapply Permutation_Forall; eauto].
  rewrite (foldw_perm T o g _ _ H Eg F P) in E1. congruence.
Qed.

Lemma tree_total T o f t : IntType T -> it_op T o = Some f ->
  Forall (Fits T) (leaves t) ->
  (~ Strict T \/ (o <> RO_Sum /\ o <> RO_Prod)) ->
  exists x, combine_tree f t = Ok x /\ Fits T x.
Proof.
  intros H Ef F C. destruct (it_op_some T o f Ef) as [g Eg].
  induction t; simpl.
  - inversion F; subst. eauto.
  - simpl in F. apply Forall_app in F as [F1 F2].
    destruct (IHt1 F1) as [a [Ea Fa]]. destruct (IHt2 F2) as [b [Eb Fb]].
    rewrite Ea, Eb. cbn [obind]. exists (it_wrap T (g a b)). split; [|apply wrap_fits; auto].
    apply (it_op_result T o f g); auto. intros S. destruct C as [C|[C1 C2]]; [tauto|].
    apply (math_fits T o); auto.
Qed.
