(* Properties C38-C40: predefined types *)
From Coq Require Import ZArith List Bool Lia Permutation Floats.SpecFloat ZifyBool ZifyNat.
From Verif Require Import Base Model_Transition Model_Mem Model_Type Spec_Type Proof_Type Proof_Type2 Proof_Type3.
Import ListNotations.
Open Scope Z_scope.

(* ---------- C38 ---------- *)

(* Reducing two arrays with a predefined integer type: each element of the output becomes the
   mathematical result reduced to the type, and no other byte changes. The output may be
   the same array as one or both of the inputs. For int32/int64 this needs that the
   sums/products are representable. *)
Theorem C38_reduce_elements : forall T o g m out in1 in2 count,
  IntType T -> math_op o = Some g -> 0 <= count ->
  SameOrApart out in1 (count * Z.of_nat (it_size T)) -> SameOrApart out in2 (count * Z.of_nat (it_size T)) ->
  (Strict T -> forall i, 0 <= i < count -> Fits T (g (ielem T m in1 i) (ielem T m in2 i))) ->
  exists m', it_reduce T m (Some out) (Some in1) (Some in2) count o = Ok m' /\
    OnlyChanges out (count * Z.of_nat (it_size T)) m m' /\
    forall i, 0 <= i < count -> Reduced T (g (ielem T m in1 i) (ielem T m in2 i)) (ielem T m' out i).
Proof. exact it_reduce_ok. Qed.

(* "Reduced" determines the value *)
Theorem C38_reduced_unique : forall T z r r', IntType T -> Reduced T z r -> Reduced T z r' -> r = r'.
Proof. intros T z r r' H R R'. rewrite (reduced_wrap T z r H R), (reduced_wrap T z r' H R'). auto. Qed.

(* the result is exact whenever it is representable *)
Theorem C38_reduced_exact : forall T z r, IntType T -> Fits T z -> Reduced T z r -> r = z.
Proof. intros T z r H F R. rewrite (reduced_wrap T z r H R). apply wrap_id; auto. Qed.

(* otherwise the behaviour is undefined *)
Theorem C38_overflow : forall T o g m out in1 in2 count i,
  IntType T -> math_op o = Some g ->
  SameOrApart out in1 (count * Z.of_nat (it_size T)) -> SameOrApart out in2 (count * Z.of_nat (it_size T)) ->
  Strict T -> 0 <= i < count -> ~ Fits T (g (ielem T m in1 i) (ielem T m in2 i)) ->
  it_reduce T m (Some out) (Some in1) (Some in2) count o = UB.
Proof. exact it_reduce_overflow. Qed.

(* operations other than sum, product, min, max, and, or end the program *)
Theorem C38_unsupported : forall T o m out in1 in2 count, math_op o = None ->
  it_reduce T m (Some out) (Some in1) (Some in2) count o = Abort.
Proof. exact it_reduce_unsupported. Qed.

(* However the inputs are combined (in any order, with any bracketing): all ways which have
   a defined result have the same result *)
Theorem C38_order_independent : forall T o f t1 t2 x y,
  IntType T -> it_op T o = Some f ->
  Forall (Fits T) (leaves t1) -> Permutation (leaves t1) (leaves t2) ->
  combine_tree f t1 = Ok x -> combine_tree f t2 = Ok y -> x = y.
Proof. exact tree_order. Qed.

(* and except for sum and product of int32/int64 the result is always defined *)
Theorem C38_order_total : forall T o f t,
  IntType T -> it_op T o = Some f -> Forall (Fits T) (leaves t) ->
  (~ Strict T \/ (o <> RO_Sum /\ o <> RO_Prod)) ->
  exists x, combine_tree f t = Ok x /\ Fits T x.
Proof. exact tree_total. Qed.

(* for int32/int64 sums the order decides whether the result is defined *)
Theorem C38_signed_order_refuted : exists a b c f,
  Fits T_int32 a /\ Fits T_int32 b /\ Fits T_int32 c /\ it_op T_int32 RO_Sum = Some f /\
  combine_tree f (Node (Node (Leaf a) (Leaf b)) (Leaf c)) = UB /\
  combine_tree f (Node (Leaf a) (Node (Leaf b) (Leaf c))) = Ok a.
Proof.
  exists 2147483647, 1, (-1). eexists.
  split; [vm_compute; split; congruence|]. split; [vm_compute; split; congruence|]. split; [vm_compute; split; congruence|].
  split; [reflexivity|]. vmsplit.
Qed.

(* float and double: minimum and maximum give one of the operands, and no operand is smaller
   (greater) than the result *)
Theorem C38_float_minmax : forall F f x y r, FType F ->
  (ft_op F RO_Min = Some f -> f x y = Ok r -> (r = x \/ r = y) /\ SFltb x r = false /\ SFltb y r = false) /\
  (ft_op F RO_Max = Some f -> f x y = Ok r -> (r = x \/ r = y) /\ SFltb r x = false /\ SFltb r y = false).
Proof.
  intros F f x y r _. split; simpl; intros E; injection E as <-; intros E; injection E as <-.
  - destruct (SFltb x y) eqn:L; (split; [auto|]); split; auto using SFltb_irrefl, SFltb_asym.
  - destruct (SFltb y x) eqn:L; (split; [auto|]); split; auto using SFltb_irrefl, SFltb_asym.
Qed.
Print Assumptions C38_float_minmax.

(* float and double: exchanging two operands does not matter for sum and product ... *)
Theorem C38_float_comm : forall F o f x y, FType F -> ft_op F o = Some f -> o = RO_Sum \/ o = RO_Prod ->
  f x y = f y x.
Proof.
  intros F o f x y HF Ef [->| ->]; simpl in Ef; injection Ef as <-; f_equal. apply SFadd_comm. apply SFmul_comm.
Qed.

(* ... but sums depend on bracketing: (1 + 2^53) + 1 <> (1 + 1) + 2^53, and minima on the
   order (with -0.0 and 0.0) *)
Definition dbl2p53 : spec_float := S754_finite false (Z.to_pos (2 ^ 52)) 1.
Theorem C38_float_order_refuted : exists a b c f g r1 r2,
  ft_op T_double RO_Sum = Some f /\ ft_op T_double RO_Min = Some g /\
  combine_tree f (Node (Node (Leaf a) (Leaf b)) (Leaf c)) = Ok r1 /\
  combine_tree f (Node (Node (Leaf a) (Leaf c)) (Leaf b)) = Ok r2 /\ SFltb r1 r2 = true /\
  g (S754_zero false) (S754_zero true) <> g (S754_zero true) (S754_zero false).
Proof.
  exists (ft_one T_double), dbl2p53, (ft_one T_double). do 4 eexists.
  split; [reflexivity|]. split; [reflexivity|]. split; [vm_compute; reflexivity|].
  split; [vm_compute; reflexivity|]. split; [vm_compute; reflexivity|]. vm_compute. congruence.
Qed.

(* non-vacuity: two int32 arrays of 3 elements, in-place sum *)
Definition exmem : mem := fun a => if (a =? 100) || (a =? 104) then 7 else if a =? 113 then 1 else if a =? 108 then 250 else 0.
Example C38_case : exists m', it_reduce T_int32 exmem (Some 100) (Some 100) (Some 104) 1 RO_Sum = Ok m' /\
  SameOrApart 100 100 (1 * 4) /\ SameOrApart 100 104 (1 * 4) /\
  ielem T_int32 m' 100 0 = 14 /\ ielem T_int32 m' 104 0 = 7.
Proof. eexists. split; [reflexivity|]. split; [left; auto|]. split; [right; lia|]. vmsplit. Qed.
Example C38_case_wrap : exists m', it_reduce T_uchar exmem (Some 200) (Some 108) (Some 104) 1 RO_Sum = Ok m' /\
  ielem T_uchar m' 200 0 = 1.
Proof. eexists. split; [reflexivity|]. vmsplit. Qed.
Example C38_case_tree : exists f, it_op T_char RO_Prod = Some f /\
  combine_tree f (Node (Node (Leaf 100) (Leaf 3)) (Leaf (-5))) = Ok 36 /\
  combine_tree f (Node (Leaf (-5)) (Node (Leaf 3) (Leaf 100))) = Ok 36.
Proof. eexists. split; [reflexivity|]. vmsplit. Qed.

(* ---------- C39 ---------- *)

(* sum, product, and, or: initialisation writes a value v into all elements, changes nothing
   else, and v is neutral *)
Theorem C39_neutral : forall T o f m base count, IntType T -> it_op T o = Some f ->
  o <> RO_Min -> o <> RO_Max -> 0 <= count ->
  exists m' v, it_init T m base count o = Ok m' /\
    OnlyChanges base (count * Z.of_nat (it_size T)) m m' /\
    (forall i, 0 <= i < count -> ielem T m' base i = v) /\
    (forall x, Fits T x -> f v x = Ok x /\ f x v = Ok x).
Proof.
  intros T o f m base count H Ef N1 N2 Hc.
  assert (exists v, it_initval T o = Some v) as [v Ev] by (destruct o; simpl in *; try discriminate; eauto).
  destruct (it_init_spec T o v m base count H Ev Hc) as [m' [E [C R]]].
  exists m', v. split; [exact E|]. split; [exact C|]. split; [exact R|].
  intros x Fx. apply (neutral_ok T o); auto.
Qed.

(* min, max: the value written is the absorbing element: the result of reducing it with
   anything is this value again. So the claim is false for all six types. *)
Theorem C39_minmax_refuted : forall T o f m base count, IntType T -> it_op T o = Some f ->
  o = RO_Min \/ o = RO_Max -> 0 <= count ->
  exists m' v, it_init T m base count o = Ok m' /\
    (forall i, 0 <= i < count -> ielem T m' base i = v) /\
    (forall x, Fits T x -> f v x = Ok v /\ f x v = Ok v).
Proof.
  intros T o f m base count H Ef C Hc.
  assert (exists v, it_initval T o = Some v) as [v Ev] by (destruct C; subst o; simpl in *; eauto).
  destruct (it_init_spec T o v m base count H Ev Hc) as [m' [E [Ch R]]].
  exists m', v. split; [exact E|]. split; [exact R|]. intros x Fx. apply (minmax_absorbs T o); auto.
Qed.

(* float and double: sum and product; the only exception is 0.0 + -0.0 = 0.0. [FVal] holds
   for every value loaded from memory. *)
Theorem C39_float_neutral : forall F o f m base count, FType F -> ft_op F o = Some f ->
  o = RO_Sum \/ o = RO_Prod -> 0 <= count ->
  exists m' v, ft_init F m base count o = Ok m' /\
    OnlyChanges base (count * Z.of_nat (ft_size F)) m m' /\
    (forall i, 0 <= i < count -> felem F m' base i = v) /\
    (forall m2 p i, let x := felem F m2 p i in
       (o = RO_Sum -> x <> S754_zero true) -> f v x = Ok x /\ f x v = Ok x).
Proof.
  intros F o f m base count HF Ef C Hc.
  assert (exists v, ft_initval F o = Some v) as [v Ev] by (destruct C; subst o; simpl in *; eauto).
  destruct (ft_init_spec F o v m base count HF Ev Hc) as [m' [E [Ch R]]].
  exists m', v. split; [exact E|]. split; [exact Ch|]. split; [exact R|].
  intros m2 p i x Hx. destruct C as [->| ->]; simpl in Ef, Ev; injection Ef as <-; injection Ev as <-.
  - destruct (ft_zero_neutral F x (Hx eq_refl)) as [A B]. rewrite A, B. auto.
  - destruct (ft_one_neutral F x HF (ft_load_FVal F _ HF)) as [A B]. rewrite A, B. auto.
Qed.

Theorem C39_float_minmax_refuted : forall F, FType F -> exists f v x,
  ft_op F RO_Min = Some f /\ ft_initval F RO_Min = Some v /\ FVal F x /\ f v x = Ok v /\ SFltb v x = true.
Proof.
  intros F HF. eexists. eexists. exists (ft_one F). split; [reflexivity|]. split; [reflexivity|].
  split; [destruct HF; subst F; vm_compute; right; repeat split; congruence|].
  split; destruct HF; subst F; vm_compute; reflexivity.
Qed.

Example C39_case : exists m', it_init T_int64 exmem 16 2 RO_And = Ok m' /\
  ielem T_int64 m' 16 1 = -1 /\ m' 32 = 0 /\ it_op T_int64 RO_And <> None.
Proof. eexists. split; [reflexivity|]. split; [vm_compute; reflexivity|]. split; [vm_compute; reflexivity|]. vm_compute; congruence. Qed.
Example C39_case_minmax : exists m', it_init T_uint32 exmem 16 2 RO_Max = Ok m' /\
  ielem T_uint32 m' 16 1 = 4294967295.
Proof. eexists. split; [reflexivity|]. vmsplit. Qed.
Example C39_case_float : exists m', ft_init T_float exmem 16 2 RO_Prod = Ok m' /\
  felem T_float m' 16 1 = S754_finite false 8388608 (-23).
Proof. eexists. split; [reflexivity|]. vmsplit. Qed.

(* ---------- C40 ---------- *)

(* one input missing: the other one is copied (integer types; also floats) *)
Theorem C40_one_missing : forall T m out inp count o, 0 <= count ->
  Apart out inp (count * Z.of_nat (it_size T)) ->
  exists m', it_reduce T m (Some out) (Some inp) None count o = Ok m' /\
    it_reduce T m (Some out) None (Some inp) count o = Ok m' /\
    OnlyChanges out (count * Z.of_nat (it_size T)) m m' /\
    forall k, 0 <= k < count * Z.of_nat (it_size T) -> m' (out + k) = m (inp + k).
Proof.
  intros T m out inp count o Hc A. destruct (memcpy_ok m out inp (count * Z.of_nat (it_size T)) ltac:(lia) A) as [m' [E [C R]]].
  exists m'. split; [exact E|]. split; [exact E|]. split; auto.
Qed.
Theorem C40_one_missing_float : forall F m out inp count o, 0 <= count ->
  Apart out inp (count * Z.of_nat (ft_size F)) ->
  exists m', ft_reduce F m (Some out) (Some inp) None count o = Ok m' /\
    ft_reduce F m (Some out) None (Some inp) count o = Ok m' /\
    OnlyChanges out (count * Z.of_nat (ft_size F)) m m' /\
    forall k, 0 <= k < count * Z.of_nat (ft_size F) -> m' (out + k) = m (inp + k).
Proof.
  intros F m out inp count o Hc A. destruct (memcpy_ok m out inp (count * Z.of_nat (ft_size F)) ltac:(lia) A) as [m' [E [C R]]].
  exists m'. split; [exact E|]. split; [exact E|]. split; auto.
Qed.

(* both inputs missing: char and the floating point types write their initial value into
   all elements *)
Theorem C40_both_missing : forall o m out count, 0 <= count ->
  (forall v, it_initval T_char o = Some v ->
   exists m', it_reduce T_char m (Some out) None None count o = Ok m' /\
     OnlyChanges out count m m' /\ forall i, 0 <= i < count -> ielem T_char m' out i = v) /\
  (forall F v, FType F -> ft_initval F o = Some v ->
   exists m', ft_reduce F m (Some out) None None count o = Ok m' /\
     OnlyChanges out (count * Z.of_nat (ft_size F)) m m' /\ forall i, 0 <= i < count -> felem F m' out i = v).
Proof.
  intros o m out count Hc. split.
  - intros v Ev. destruct (it_init_spec T_char o v m out count ltac:(left; auto) Ev Hc) as [m' [E [C R]]].
    exists m'. change (Z.of_nat (it_size T_char)) with 1 in C. rewrite Z.mul_1_r in C. auto.
  - intros F v HF Ev. exact (ft_init_spec F o v m out count HF Ev Hc).
Qed.

(* uchar: correct for sum, product, or, and *)
Theorem C40_both_missing_uchar : forall o v m out count, 0 <= count ->
  o <> RO_Min -> o <> RO_Max -> it_initval T_uchar o = Some v ->
  exists m', it_reduce T_uchar m (Some out) None None count o = Ok m' /\
    OnlyChanges out count m m' /\ forall i, 0 <= i < count -> ielem T_uchar m' out i = v.
Proof.
  intros o v m out count Hc N1 N2 Ev.
  assert (exists w, it_initval T_char o = Some w /\ it_store T_char w = it_store T_uchar v) as [w [Ew Es]].
  { destruct o; simpl in *; try discriminate; try congruence; injection Ev as <-; eexists; split; try reflexivity. }
  change (it_reduce T_uchar m (Some out) None None count o) with (it_init T_char m out count o).
  unfold it_init. rewrite Ew, Es. eexists. split; [reflexivity|].
  destruct (fill_spec (Z.to_nat count) m out (it_store T_uchar v)) as [C R].
  rewrite store_length, Z2Nat.id in * by auto. change (Z.of_nat (it_size T_uchar)) with 1 in *. rewrite Z.mul_1_r in C.
  split; [exact C|]. intros i Hi. unfold ielem. change (Z.of_nat (it_size T_uchar)) with 1. rewrite R by lia.
  assert (IntType T_uchar) by (right; left; auto).
  apply load_store; auto. eapply initval_fits; eauto.
Qed.

(* the other integer types: at most [count] bytes are written, so from two elements on the
   last element keeps its old value *)
Theorem C40_both_missing_refuted : forall T o m out count, IntType T -> (1 < it_size T)%nat ->
  it_initval T o <> None -> 2 <= count ->
  exists m', it_reduce T m (Some out) None None count o = Ok m' /\
    OnlyChanges out count m m' /\ ielem T m' out (count - 1) = ielem T m out (count - 1).
Proof.
  intros T o m out count H Hs Hv Hc.
  assert (exists v, it_initval T_char o = Some v) as [v Ev] by (destruct o; simpl in *; try congruence; eauto).
  destruct (it_init_spec T_char o v m out count ltac:(left; auto) Ev ltac:(lia)) as [m' [E [C R]]].
  change (Z.of_nat (it_size T_char)) with 1 in C. rewrite Z.mul_1_r in C.
  exists m'. split; [exact E|]. split; [exact C|]. unfold ielem. f_equal. apply mread_ext. intros a Ha. apply C. nia.
Qed.
Theorem C40_uchar_min_refuted : exists m m' v, it_initval T_uchar RO_Min = Some v /\
  it_reduce T_uchar m (Some 0) None None 1 RO_Min = Ok m' /\ ielem T_uchar m' 0 0 <> v.
Proof. exists exmem. eexists. eexists. split; [reflexivity|]. split; [reflexivity|]. vm_compute. congruence. Qed.

Example C40_case : exists m', it_reduce T_int32 exmem (Some 200) None (Some 100) 2 RO_Max = Ok m' /\
  Apart 200 100 (2 * 4) /\ ielem T_int32 m' 200 0 = 7 /\ ielem T_int32 m' 200 1 = 7.
Proof. eexists. split; [reflexivity|]. split; [right; lia|]. vmsplit. Qed.
Example C40_case_both : exists m', it_reduce T_int32 exmem (Some 100) None None 2 RO_Sum = Ok m' /\
  ielem T_int32 m' 100 0 = 0 /\ ielem T_int32 m' 100 1 = 7.
Proof. eexists. split; [reflexivity|]. vmsplit. Qed.

Print Assumptions C38_reduce_elements.
Print Assumptions C38_reduced_unique.
Print Assumptions C38_reduced_exact.
Print Assumptions C38_overflow.
Print Assumptions C38_unsupported.
Print Assumptions C38_order_independent.
Print Assumptions C38_order_total.
Print Assumptions C38_signed_order_refuted.
Print Assumptions C38_float_comm.
Print Assumptions C38_float_order_refuted.
Print Assumptions C39_neutral.
Print Assumptions C39_minmax_refuted.
Print Assumptions C39_float_neutral.
Print Assumptions C39_float_minmax_refuted.
Print Assumptions C40_one_missing.
Print Assumptions C40_one_missing_float.
Print Assumptions C40_both_missing.
Print Assumptions C40_both_missing_uchar.
Print Assumptions C40_both_missing_refuted.
Print Assumptions C40_uchar_min_refuted.
