(* C32: reductions by messages. *)
From Coq Require Import ZArith List Bool Lia ZifyBool ZifyNat Permutation SpecFloat.
From Verif Require Import Base Model_Space Model_Mem Model_Type Model_Transition Model_Action Model_ActionTrans Model_ActionExec Model_ActionExec2 Model_Net.
From Verif Require Import Spec_Type Spec_Action Spec_ActionTrans Spec_Net Spec_Reduce.
From Verif Require Import Proof_Reduce1 Proof_Reduce3 Proof_Reduce4 Proof_Net.
Import ListNotations.
Open Scope Z_scope.

(* For every group of processes, input group and output group, every data type, operation and
   all values: the actions generated for a group reduction exist on each process, and however
   the processes are scheduled, their execution ends, and then every output process has in
   its output buffer the reduction of the inputs of all input processes. Nothing else changes
   except for the temporary buffer, and all messages sent are received.
   The order of the operands: with up to 8 inputs, each output process reduces itself and
   starts with its own input (if any); otherwise the first output process does it for all. *)
Theorem C32_split : forall N cx place T oth nres i o R c es r from to ins outs,
  Agreed N cx i o es ins outs -> outs <> [] -> (length ins <= 32)%nat ->
  0 < c * es -> c * es * Z.of_nat (length ins) < 2 ^ 32 -> 0 <= R -> 3 * R + 2 < 255 ->
  Sized T es r c -> BuffersOk (c * es) from to (fun p => place p (nres p + 100)) ins outs ->
  exists acts, (forall p, 0 <= p < N -> exists k, split_one (cx p) (nres p) (mkAct R (GroupReduce i o (from p) (to p) c r)) = Ok (acts p, k)) /\
    forall m, AlwaysEnds N (nstart (fun p => program (den2 (cx p) (place p) T (oth p)) (acts p)) m)
      (ReducedIn N (c * es) to (fun p => place p (nres p + 100)) ins outs m
        (fun p => reduce_all T r c (map (fun q => rdb (m q) (from q) (c * es)) (first_me (if Z.of_nat (length ins) <=? 8 then p else hd 0 outs) ins)))).
Proof.
  intros N cx place T oth nres i o R c es r from to ins outs (NI & NO & RI & RO & HA) HO H32 Hn Hsz HR0 HR2 HS HB.
  assert (E2 : two ins = (Z.of_nat (length ins) <=? 8)) by (unfold two; nia).
  assert (HX : forall p, 0 <= p < N -> exists acts, exists k u v, split_one (cx p) (nres p) (mkAct R (GroupReduce i o (from p) (to p) c r)) = Ok (acts, k) /\
     program (den2 (cx p) (place p) T (oth p)) acts = repeat skip u ++ partA cx c from ins outs p ++ repeat skip v ++ partB cx place T nres c r from to ins outs p ++ partC cx c to ins outs p).
  { intros p Hp. apply (split_shape N cx place T oth nres i o R c es r from to ins outs); auto; intros q Hq; first [apply (HA q Hq)|apply (HB q Hq)]. }
  destruct (choice_range [] _ N HX) as (acts & Hacts). exists acts. split.
  - intros p Hp. destruct (Hacts p Hp) as (k & u & v & E & _). eauto.
  - intros m. assert (G : AlwaysEnds N (nstart (fun p => program (den2 (cx p) (place p) T (oth p)) (acts p)) m) (outcome_ N place T nres c es r from to ins outs m)).
    { apply (group_run N cx place T oth nres c es r from to ins outs m); auto.
      - intros p Hp. apply (HA p Hp).
      - intros p Hp. apply (HB p Hp).
      - intros p Hp. destruct (HB p Hp) as (_ & A & B). split; [exact A|exact B].
      - intros p Hp. destruct (Hacts p Hp) as (k & u & v & _ & E). exists u, v. exact E. }
    intros sched y S Hrun. destruct (G sched y S Hrun) as [G1 G2]. split; auto. intros D p Hp. destruct (G2 D p Hp) as (A & B & C). unfold ReducedIn.
    rewrite E2 in A. unfold root in A. split; [exact A|]. split; [|exact C]. intros x X1 X2. apply B; auto. intros (Y1 & _ & Y2). apply X2. split; [exact Y1|exact Y2].
Qed.

(* With an associative and commutative operation, it is the reduction in the order of the group *)
Theorem C32_value : forall N cx place T oth nres i o R c es r from to ins outs,
  Agreed N cx i o es ins outs -> outs <> [] -> (length ins <= 32)%nat ->
  0 < c * es -> c * es * Z.of_nat (length ins) < 2 ^ 32 -> 0 <= R -> 3 * R + 2 < 255 ->
  Sized T es r c -> AssocComm T es r c -> BuffersOk (c * es) from to (fun p => place p (nres p + 100)) ins outs ->
  exists acts, (forall p, 0 <= p < N -> exists k, split_one (cx p) (nres p) (mkAct R (GroupReduce i o (from p) (to p) c r)) = Ok (acts p, k)) /\
    forall m, AlwaysEnds N (nstart (fun p => program (den2 (cx p) (place p) T (oth p)) (acts p)) m)
      (ReducedIn N (c * es) to (fun p => place p (nres p + 100)) ins outs m
        (fun _ => reduce_all T r c (map (fun q => rdb (m q) (from q) (c * es)) ins))).
Proof.
  intros N cx place T oth nres i o R c es r from to ins outs HA HO H32 Hn Hsz HR0 HR2 HS AC HB.
  destruct (C32_split N cx place T oth nres i o R c es r from to ins outs) as (acts & H1 & H2); auto.
  exists acts. split; auto. intros m sched y S Hrun. destruct (H2 m sched y S Hrun) as [G1 G2]. split; auto. intros D p Hp. destruct (G2 D p Hp) as (A & B & C).
  split; [|split; auto]. intros Ho. rewrite (A Ho). apply (reduce_perm T es r c); auto.
  - apply Permutation_map, first_me_perm. apply HA.
  - apply Forall_forall. intros v Hv. apply in_map_iff in Hv. destruct Hv as (q & <- & _). apply rdb_len. lia.
Qed.

(* The predefined integer types satisfy this, except for sums and products of int32 and int64
   which may overflow (see C38) *)
Theorem C32_integers : forall T o c, IntType T -> it_op T o <> None -> TotalOp T o -> 0 <= c ->
  Sized (int_dt T) (Z.of_nat (it_size T)) o c /\ AssocComm (int_dt T) (Z.of_nat (it_size T)) o c.
Proof.
  intros T o c IT Ho Tot Hc. split; [apply bytes_sized; lia|]. destruct (it_op T o) as [f|] eqn:E; [|congruence]. eapply int_assoc_comm; eauto.
Qed.

(* In a sequence, each group reduction is replaced by these actions; other actions are kept,
   in the middle one of the 3 rounds which replace their round; an unchanged sequence is one
   without group reduction *)
Theorem C32_sequence : forall cx s changed s', (forall a, In a (as_acts s) -> 0 <= a_round a) ->
  split_reduce cx s = Ok (changed, s') ->
  (changed = true <-> exists a, In a (as_acts s) /\ is_groupReduce a = true) /\
  (changed = false -> s' = s) /\
  (changed = true -> exists parts, as_acts s' = concat parts /\
     Forall2 (fun a part =>
       if is_groupReduce a then exists k k', as_nres s <= k /\ split_one cx k a = Ok (part, k')
       else filter not_nop part = filter not_nop [mkAct (3 * a_round a + 1) (a_par a)]) (as_acts s) parts).
Proof.
  intros cx s changed s' Hr E. unfold split_reduce in E. destruct (existsb is_groupReduce (as_acts s)) eqn:X; cbn [negb] in E.
  - destruct (split_loop cx (as_nres s) (as_acts s)) as [[l k]| | | |] eqn:L; try discriminate. cbn [obind fst snd] in E. injection E as <- <-.
    apply existsb_exists in X. split; [tauto|]. split; [discriminate|]. intros _. destruct (split_loop_parts _ _ _ _ _ Hr L) as (_ & parts & -> & HP). exists parts. split; auto.
  - injection E as <- <-. split; [|split; [auto|discriminate]]. split; [discriminate|]. intros Y. apply existsb_exists in Y. congruence.
Qed.

(* the new temporary buffers have new IDs: those in the resulting sequence are different if
   they were before *)
Theorem C32_new_buffers : forall cx s changed s', (forall a, In a (as_acts s) -> 0 <= a_round a) ->
  split_reduce cx s = Ok (changed, s') ->
  NoDup (ids (as_acts s)) -> (forall x, In x (ids (as_acts s)) -> x < as_nres s + 100) ->
  NoDup (ids (as_acts s')) /\ (forall x, In x (ids (as_acts s')) -> x < as_nres s' + 100) /\ incl (ids (as_acts s)) (ids (as_acts s')).
Proof.
  intros cx s changed s' Hr E ND Hx. unfold split_reduce in E. destruct (existsb is_groupReduce (as_acts s)); cbn [negb] in E.
  - destruct (split_loop cx (as_nres s) (as_acts s)) as [[l k]| | | |] eqn:L; try discriminate. cbn [obind fst snd] in E. injection E as <- <-. cbn [as_acts as_nres].
    destruct (split_loop_ids _ _ _ _ _ Hr L) as (new & P & NDn & Hk & Hn). split; [|split].
    + eapply Permutation_NoDup; [apply Permutation_sym; exact P|]. clear - NDn ND Hx Hn. induction NDn as [|y new Hy NDn IH]; auto. cbn [app]. constructor.
      * rewrite in_app_iff. intros [I|I]; [auto|]. apply Hx in I. specialize (Hn y (or_introl eq_refl)). lia.
      * apply IH. intros; apply Hn; right; auto.
    + intros x I. apply (Permutation_in _ P) in I. apply in_app_or in I. destruct I as [I|I]; [apply Hn in I; lia|apply Hx in I; lia].
    + intros x I. apply (Permutation_in _ (Permutation_sym P)). apply in_or_app. auto.
  - injection E as <- <-. split; [auto|]. split; [auto|]. intros x I. auto.
Qed.

(* ---- a case: 4 processes, inputs from 0, 1, 3, outputs on 1 and 2, sums of 2 uint32 ---- *)
Definition rd_cx (p : Z) : actx := mkCtx 4 1 4 p [[0; 1; 3]; [1; 2]] None None.
Definition rd_from (p : Z) : Z := 1000.
Definition rd_to (p : Z) : Z := if p =? 1 then 1000 else 2000.     (* in place on process 1 *)
Definition rd_place (p id : Z) : Z := 5000.
Definition rd_oth (p : Z) (a : apar) : instr := skip.
Definition rd_a (p : Z) : action := mkAct 2 (GroupReduce 0 1 (rd_from p) (rd_to p) 2 RO_Sum).
Definition rd_m (p : Z) : mem := mwrite (fun _ => 0) 1000 [250 + p; 1; 0; 0; 7 * p; 0; 0; 0].
Definition rd_acts (p : Z) : list action := match split_one (rd_cx p) 0 (rd_a p) with Ok (l, _) => l | _ => [] end.

Example C32_case :
  Agreed 4 rd_cx 0 1 4 [0; 1; 3] [1; 2] /\ BuffersOk (2 * 4) rd_from rd_to (fun p => rd_place p (0 + 100)) [0; 1; 3] [1; 2] /\
  Sized (int_dt T_uint32) 4 RO_Sum 2 /\ AssocComm (int_dt T_uint32) 4 RO_Sum 2.
Proof.
  split; [|split].
  - split; [repeat constructor; simpl; intuition lia|]. split; [repeat constructor; simpl; intuition lia|]. split; [simpl; intuition lia|]. split; [simpl; intuition lia|].
    intros p _. repeat split.
  - intros p Hp. split; [|split].
    + simpl in Hp. destruct Hp as [<-|[<-|[]]]; [left; reflexivity|right]. intros x. unfold region, rd_from, rd_to. simpl. lia.
    + simpl in Hp. destruct Hp as [<-|[<-|[]]]; intros x; unfold temp, region, rd_from, rd_place; simpl; lia.
    + simpl in Hp. destruct Hp as [<-|[<-|[]]]; intros x; unfold temp, region, rd_to, rd_place; simpl; lia.
  - apply (C32_integers T_uint32 RO_Sum 2); [unfold IntType; simpl; tauto|discriminate| |lia]. left. intros [H|H]; discriminate.
Qed.
Example C32_case_acts : rd_acts 1 =
  [mkAct 6 (BufSend 1000 2 2); mkAct 0 (BufReserve 16 100 0); mkAct 6 (RBufRecv 100 0 2 0); mkAct 6 (RBufRecv 100 8 2 3);
   mkAct 7 (RBufLocalReduce RO_Sum 100 0 1000 2); mkAct 7 (RBufLocalReduce RO_Sum 100 8 1000 2)] /\
  rd_acts 3 = [mkAct 6 (BufSend 1000 2 1); mkAct 6 (BufSend 1000 2 2)].
Proof. split; reflexivity. Qed.
(* one schedule, and the result on process 2: 250+251+253 with carries, 0+7+21 *)
Definition rd_end : option net := nrun [3; 0; 3; 1; 1; 1; 0; 1; 2; 1; 1; 2; 2; 2; 2; 2; 2]
  (nstart (fun p => program (den2 (rd_cx p) (rd_place p) (int_dt T_uint32) (rd_oth p)) (rd_acts p)) rd_m).
Definition looks (x : option net) (p a n : Z) : option (list Z * nat) :=
  match x with Some y => Some (rdb (p_mem (pr_st (y p))) a n, length (pr_code (y p))) | None => None end.
Example C32_case_run : looks rd_end 2 2000 8 = Some ([242; 5; 0; 0; 28; 0; 0; 0], 0%nat) /\ looks rd_end 1 1000 8 = Some ([242; 5; 0; 0; 28; 0; 0; 0], 0%nat) /\ looks rd_end 0 0 0 = Some ([], 0%nat) /\ looks rd_end 3 0 0 = Some ([], 0%nat).
Proof. vmsplit. Qed.

(* 9 inputs: 3 rounds *)
Definition rd9_cx (p : Z) : actx := mkCtx 8 1 9 p [[0; 1; 2; 3; 4; 5; 6; 7; 8]; [4; 6]] None None.
Definition rd9_acts (p : Z) : list action := match split_one (rd9_cx p) 3 (mkAct 0 (GroupReduce (-1) 1 1000 2000 1 RO_Max)) with Ok (l, _) => l | _ => [] end.
Example C32_case9 : rd9_acts 6 = [mkAct 0 (BufSend 1000 1 4); mkAct 2 (BufRecv 2000 1 4)] /\ rd9_acts 7 = [mkAct 0 (BufSend 1000 1 4)] /\
  length (rd9_acts 4) = 19%nat.
Proof. repeat split. Qed.

(* ---- what does not hold ---- *)

(* more than 32 inputs: the process which reduces aborts *)
Theorem C32_limit_refuted : exists cx a, cx_me cx = 0 /\ a_par a = GroupReduce (-1) (-1) 1000 1000 1 RO_Sum /\ cx_size cx = 33 /\
  split_one cx 0 a = Abort.
Proof. exists (mkCtx 8 1 33 0 [] None None), (mkAct 0 (GroupReduce (-1) (-1) 1000 1000 1 RO_Sum)). vmsplit. Qed.

(* Without an associative operation, processes with the same output get different values: with
   sums of double, 2^53 + 1 + 1 is 2^53 + 2 on the process providing 1 last and 2^53 on others *)
Definition dbl (x : spec_float) : list Z := ft_store T_double x.
Definition ord_cx (p : Z) : actx := mkCtx 8 1 3 p [] None None.
Definition ord_acts (p : Z) : list action := match split_one (ord_cx p) 0 (mkAct 0 (GroupReduce (-1) (-1) 1000 1000 1 RO_Sum)) with Ok (l, _) => l | _ => [] end.
Definition ord_m (p : Z) : mem := mwrite (fun _ => 0) 1000 (dbl (if p =? 1 then S754_finite false 4503599627370496 1 else S754_finite false 4503599627370496 (-52))).
Definition ord_end : option net := nrun (repeat 0 2 ++ repeat 1 2 ++ repeat 2 7 ++ repeat 0 5 ++ repeat 1 5)
  (nstart (fun p => program (den2 (ord_cx p) (fun _ => 5000) (float_dt T_double) (fun _ => skip)) (ord_acts p)) ord_m).
Theorem C32_same_everywhere_refuted : exists v w, looks ord_end 0 1000 8 = Some (v, 0%nat) /\ looks ord_end 2 1000 8 = Some (w, 0%nat) /\ v <> w /\ looks ord_end 1 0 0 = Some ([], 0%nat) /\ looks ord_end 2 0 0 = Some ([], 0%nat).
Proof. exists (dbl (S754_finite false 4503599627370496 1)), (dbl (S754_finite false 4503599627370497 1)). repeat split; vm_compute; congruence. Qed.

Print Assumptions C32_split.
Print Assumptions C32_value.
Print Assumptions C32_integers.
Print Assumptions C32_sequence.
Print Assumptions C32_new_buffers.
Print Assumptions C32_case.
Print Assumptions C32_case_acts.
Print Assumptions C32_case_run.
Print Assumptions C32_case9.
Print Assumptions C32_limit_refuted.
Print Assumptions C32_same_everywhere_refuted.
