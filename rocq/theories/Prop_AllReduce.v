(* C67: all processes make the same choice of reductions done by collective operations *)
From Coq Require Import ZArith List Bool Lia ZifyBool ZifyNat Permutation Sorted.
From Verif Require Import Base ListFacts Model_Space Spec_Space Proof_Space Model_RangeList Spec_RangeList Proof_RangeList Proof_RangeList4 Proof_RangeList5
  Model_Partitioner Spec_Partitioner Proof_Partitioner Proof_Partitioner2 Proof_Partitioner3 Prop_Partitioner Model_Group Proof_Group Proof_Migrate Proof_Group3
  Model_Transition Spec_Transition Proof_Trans1 Proof_Trans2 Proof_Trans3 Proof_Trans4 Proof_Trans5 Proof_Trans6 Proof_Trans7 Proof_Trans8 Prop_Transition
  Model_Action Model_ActionTrans Spec_AllReduce Proof_AllReduce.
Import ListNotations.
Open Scope Z_scope.

Lemma trans_nofull qb sp gsize me fl tl f t red o : Good1d sp gsize fl tl -> Sees sp gsize me fl tl f t ->
  calc_transition qb sp (Some f) (Some t) DF_Preserve red = Ok (Some (mkTrans sp (pa_group (np_p f)) DF_Preserve red o)) -> nofull gsize o.
Proof.
  intros G S R. rewrite (calc_unfold qb sp gsize me fl tl f t red G S) in R.
  destruct (calcAddReductions qb false gsize me red fl tl tops_empty) as [o'| | | |] eqn:E; try discriminate. cbn [obind] in R.
  injection R as <-. apply (calc_nofull gsize _ _ _ _ _ _ _ E).
Qed.

(* Two processes of the same switch: the same collective operations, with the same ranges,
   operations and roots, in the same order. So no process waits in a collective operation
   for another one which does not call it. *)
Theorem C67_same : forall qb qb' sp gsize p q fl tl f t f' t' red op oq cp cq,
  Good1d sp gsize fl tl -> Sees sp gsize p fl tl f t -> Sees sp gsize q fl tl f' t' -> c_qsort rb_cmp qb -> c_qsort rb_cmp qb' ->
  calc_transition qb sp (Some f) (Some t) DF_Preserve red = Ok (Some (mkTrans sp (pa_group (np_p f)) DF_Preserve red op)) ->
  calc_transition qb' sp (Some f') (Some t') DF_Preserve red = Ok (Some (mkTrans sp (pa_group (np_p f')) DF_Preserve red oq)) ->
  ContextOf gsize cp op -> ContextOf gsize cq oq ->
  collectives cp op = collectives cq oq.
Proof.
  intros qb qb' sp gsize p q fl tl f t f' t' red op oq cp cq G S S' Q Q' R R' C C'.
  pose proof (se_in _ _ _ _ _ _ _ S) as Hp. pose proof (se_in _ _ _ _ _ _ _ S') as Hq.
  pose proof (trans_nofull _ _ _ _ _ _ _ _ _ _ G S R) as N. pose proof (trans_nofull _ _ _ _ _ _ _ _ _ _ G S' R') as N'.
  rewrite (collectives_choose gsize cp op), (collectives_choose gsize cq oq) by (auto; lia).
  rewrite (choose_member gsize op q), (choose_member gsize oq p) by auto.
  now rewrite (C23_reductions_agree qb qb' sp gsize p q fl tl f t f' t' red op oq G S S' Q Q' R R').
Qed.

(* A reduction is done by a collective operation iff all processes own its indexes before, and
   all or exactly one (the root) own them afterwards. *)
Theorem C67_meaning : forall qb sp gsize me fl tl f t red o cx x i r,
  Good1d sp gsize fl tl -> Sees sp gsize me fl tl f t -> c_qsort rb_cmp qb ->
  calc_transition qb sp (Some f) (Some t) DF_Preserve red = Ok (Some (mkTrans sp (pa_group (np_p f)) DF_Preserve red o)) ->
  ContextOf gsize cx o -> In x (tp_red o) -> InBox 1 i (rd_box x) ->
  (collective cx x = Some r <->
   (forall s, 0 <= s < gsize -> Owns fl s i) /\
   ((r = -1 /\ forall s, 0 <= s < gsize -> Owns tl s i) \/ (OnlyOwner tl r i /\ gsize <> 1))).
Proof.
  intros qb sp gsize me fl tl f t red o cx x i r G S Q R C Hx Hi.
  pose proof (se_in _ _ _ _ _ _ _ S) as Hme. pose proof (trans_nofull _ _ _ _ _ _ _ _ _ _ G S R) as N.
  destruct (C21_transition qb sp gsize me fl tl f t red G S Q) as [[o' [O1 [_ [O3 _]]]]|[O1 _]]; [|rewrite O1 in R; discriminate].
  rewrite O1 in R. injection R as ->. destruct (O3 i) as [_ _ _ _ DG].
  assert (Hi' : inb i (rd_box x) = true) by (destruct Hi as [Hi _]; unfold inb; lia).
  destruct (DG x Hx Hi') as [_ [[a [A1 [A2 A3]]] [b [B1 [B2 B3]]]]].
  rewrite (collective_choice gsize cx o x ltac:(lia) C N Hx), A1, B1. unfold choice.
  assert (RF : forall s, Owns fl s i -> 0 <= s < gsize).
  { intros s H. apply (g_own_owns _ _ _ _ G true s i) in H. apply owners_in in H. tauto. }
  assert (RT : forall s, Owns tl s i -> 0 <= s < gsize).
  { intros s H. apply (g_own_owns _ _ _ _ G false s i) in H. apply owners_in in H. tauto. }
  (* a sorted list of processes has all of them iff it has their number *)
  assert (Full : forall ts, StronglySorted Z.lt ts -> (forall s, In s ts -> 0 <= s < gsize) ->
    (Z.of_nat (length ts) = gsize <-> forall s, 0 <= s < gsize -> In s ts)).
  { intros ts Ss In1. assert (ND : NoDup ts).
    { clear -Ss. induction Ss as [|y l Ss IH F]; constructor; auto. intros H. rewrite Forall_forall in F. specialize (F _ H). lia. }
    assert (I1 : incl ts (zcount gsize)).
    { intros s H. apply In1 in H. unfold zcount. apply in_map_iff. exists (Z.to_nat s). split; [lia|apply in_seq; lia]. }
    assert (NZ : NoDup (zcount gsize)).
    { unfold zcount. apply FinFun.Injective_map_NoDup; [intros u v; lia|apply seq_NoDup]. }
    split.
    - intros L s Hs. assert (I2 : incl (zcount gsize) ts) by (apply NoDup_length_incl; auto; pose proof (zcount_len gsize); lia).
      apply I2. unfold zcount. apply in_map_iff. exists (Z.to_nat s). split; [lia|apply in_seq; lia].
    - intros H. assert (I2 : incl (zcount gsize) ts).
      { intros s Hs. unfold zcount in Hs. apply in_map_iff in Hs. destruct Hs as [n [<- Hn]]. apply in_seq in Hn. apply H. lia. }
      pose proof (NoDup_incl_length ND I1). pose proof (NoDup_incl_length NZ I2). pose proof (zcount_len gsize). lia. }
  pose proof (Full a A2 (fun s H => RF s (proj1 (A3 s) H))) as Fa. pose proof (Full b B2 (fun s H => RT s (proj1 (B3 s) H))) as Fb.
  destruct (Z.of_nat (length a) =? gsize) eqn:Ea.
  - assert (Ea' : forall s, 0 <= s < gsize -> Owns fl s i) by (intros s Hs; apply A3, Fa; auto; lia).
    destruct (Z.of_nat (length b) =? gsize) eqn:Eb.
    + assert (Eb' : forall s, 0 <= s < gsize -> Owns tl s i) by (intros s Hs; apply B3, Fb; auto; lia). split.
      * intros H. injection H as <-. split; auto.
      * intros [_ [[-> _]|[H1 H2]]]; auto. exfalso. assert (E0 : 0 = r) by (apply H1, Eb'; lia). assert (E1 : 1 = r) by (apply H1, Eb'; lia). lia.
    + assert (Nb : ~ forall s, 0 <= s < gsize -> Owns tl s i).
      { intros H. assert (Z.of_nat (length b) = gsize) by (apply Fb; intros s Hs; apply B3, H; auto). lia. }
      split.
      * intros H. destruct b as [|r' [|? ?]]; try discriminate. injection H as ->. split; auto. right. split; [|simpl in Eb; lia].
        intros s. rewrite <- B3. simpl. intuition.
      * intros [_ [[_ H]|[H1 H2]]]; [contradiction|]. assert (Ir : In r b) by (apply B3, H1; auto).
        destruct b as [|u [|v b']]; [destruct Ir|destruct Ir as [->|[]]; auto|]. exfalso.
        assert (u = r) by (apply H1, B3; left; auto). assert (v = r) by (apply H1, B3; right; left; auto).
        inversion B2 as [|? ? _ F]; subst. inversion F; subst. lia.
  - split; [discriminate|]. intros [H _]. exfalso. assert (Z.of_nat (length a) = gsize) by (apply Fa; intros s Hs; apply A3, H; auto). lia.
Qed.

(* The replaced action has the same round, buffers, number of elements and operation; other
   reductions are kept as they are. *)
Theorem C67_replaced : forall qb sp gsize me fl tl f t red o cx x round from to count,
  Good1d sp gsize fl tl -> Sees sp gsize me fl tl f t ->
  calc_transition qb sp (Some f) (Some t) DF_Preserve red = Ok (Some (mkTrans sp (pa_group (np_p f)) DF_Preserve red o)) ->
  ContextOf gsize cx o -> In x (tp_red o) -> round < 255 -> 0 < count ->
  allred_one cx (mkAct round (GroupReduce (rd_in x) (rd_out x) from to count (rd_redOp x))) =
  Ok (match collective cx x with
      | Some root => ([mkAct round (Reduce from to count root (rd_redOp x))], true)
      | None => ([mkAct round (GroupReduce (rd_in x) (rd_out x) from to count (rd_redOp x))], false)
      end).
Proof.
  intros qb sp gsize me fl tl f t red o cx x round from to count G S R [C1 C2] Hx Hr Hc.
  pose proof (trans_nofull _ _ _ _ _ _ _ _ _ _ G S R) as N. destruct (N x Hx) as [_ K].
  rewrite collective_cases. unfold allred_one, aseq_add, add_action. cbn [a_par a_round].
  replace (round <? 255) with true by lia. replace (count >? 0) with true by lia. cbn [cassert obind].
  change (-1 <? 0) with true. cbv iota. replace (round <? 255) with true by lia. cbn [cassert obind].
  destruct (rd_in x =? -1); [|reflexivity]. destruct (rd_out x =? -1) eqn:E; [reflexivity|].
  destruct K as [K|[b [B1 [B2 _]]]]; [lia|]. unfold cx_group. rewrite E, C2.
  assert (L : (Z.to_nat (rd_out x) < length (tp_groups o))%nat) by (apply nth_error_Some; congruence).
  replace (rd_out x <? Z.of_nat (length (tp_groups o))) with true by lia. cbn [cassert]. rewrite (aread_nth _ _ _ B1 B2). cbn [obind].
  destruct b as [|r [|? ?]]; reflexivity.
Qed.

(* three processes with all indexes; afterwards indexes 0-7 in process 1, 8-13 in all, the
   others in processes 0 and 2 *)
Definition ex_full : rlist := Eval vm_compute in ex_run 20 3 [ACrange 0 (exrng 20 0 20) 0; ACrange 1 (exrng 20 0 20) 0; ACrange 2 (exrng 20 0 20) 0].
Definition ex_mix : rlist := Eval vm_compute in ex_run 20 3 [ACrange 1 (exrng 20 0 14) 0; ACrange 0 (exrng 20 8 20) 0; ACrange 2 (exrng 20 8 20) 0].
Lemma ex_full_frozen : FrozenList ex_full.
Proof. apply (ex_run_frozen 20 3 [ACrange 0 (exrng 20 0 20) 0; ACrange 1 (exrng 20 0 20) 0; ACrange 2 (exrng 20 0 20) 0]); [lia|vm_compute; reflexivity]. Qed.
Lemma ex_mix_frozen : FrozenList ex_mix.
Proof. apply (ex_run_frozen 20 3 [ACrange 1 (exrng 20 0 14) 0; ACrange 0 (exrng 20 8 20) 0; ACrange 2 (exrng 20 8 20) 0]); [lia|vm_compute; reflexivity]. Qed.
Definition ex_actx (me : Z) (o : tops) : actx := mkCtx 8 1 3 me (tp_groups o) None None.
Example C67_case : exists op oq,
  Good1d (exsp 20) 3 ex_full ex_mix /\ Sees (exsp 20) 3 0 ex_full ex_mix (ex_np 1 20 3 0 ex_full) (ex_np 2 20 3 0 ex_mix) /\
  Sees (exsp 20) 3 1 ex_full ex_mix (ex_np 1 20 3 1 ex_full) (ex_np 2 20 3 1 ex_mix) /\ c_qsort rb_cmp ex_qb /\
  ContextOf 3 (ex_actx 0 op) op /\ ContextOf 3 (ex_actx 1 oq) oq /\
  calc_transition ex_qb (exsp 20) (Some (ex_np 1 20 3 0 ex_full)) (Some (ex_np 2 20 3 0 ex_mix)) DF_Preserve RO_Sum =
    Ok (Some (mkTrans (exsp 20) (exgroup 3 0) DF_Preserve RO_Sum op)) /\
  calc_transition ex_qb (exsp 20) (Some (ex_np 1 20 3 1 ex_full)) (Some (ex_np 2 20 3 1 ex_mix)) DF_Preserve RO_Sum =
    Ok (Some (mkTrans (exsp 20) (exgroup 3 1) DF_Preserve RO_Sum oq)) /\
  length (tp_red op) = 3%nat /\
  collectives (ex_actx 0 op) op = [(mkBox (mkIdx 0 0 0) (mkIdx 8 0 0), RO_Sum, 1); (mkBox (mkIdx 8 0 0) (mkIdx 14 0 0), RO_Sum, -1)] /\
  collectives (ex_actx 1 oq) oq = collectives (ex_actx 0 op) op.
Proof.
  do 2 eexists. split; [apply ex_good1d; try reflexivity; try lia; [exact ex_full_frozen|exact ex_mix_frozen]|].
  split; [apply ex_sees; lia|]. split; [apply ex_sees; lia|]. split; [exact ex_qb_ok|].
  split; [split; reflexivity|]. split; [split; reflexivity|]. vmsplit.
Qed.

Lemma add_kept r i o fk tk range cnt ro k l : aseq_add (mkAct r (MapGroupReduce i o fk tk range cnt ro)) k = Ok l ->
  exists r', In (mkAct r' (MapGroupReduce i o fk tk range cnt ro)) l.
Proof.
  unfold aseq_add, add_action. cbn [a_par a_round]. set (z := if k <? 0 then r else k). destruct (z <? 255); [|discriminate].
  cbn [cassert obind]. intros H. injection H as <-. exists z. left. reflexivity.
Qed.

(* 2d and 3d: neither the transformation of packing into actions on memory, nor the choice of
   collective operations, nor the splitting into messages has a case for a reduction. It stays
   in the sequence, and laik_mpi_exec (backend-mpi.c:952-955) ends the program for it. *)
Theorem C67_nd_refuted : forall cx s s1 s2 s3 r i o fk tk range cnt ro, cx_dims cx <> 1%nat ->
  In (mkAct r (MapGroupReduce i o fk tk range cnt ro)) (as_acts s) ->
  flatten cx s = Ok s1 -> replace_allreduce cx (snd s1) = Ok s2 -> split_reduce cx (snd s2) = Ok s3 ->
  exists r', In (mkAct r' (MapGroupReduce i o fk tk range cnt ro)) (as_acts (snd s3)).
Proof.
  intros cx s s1 s2 s3 r i o fk tk range cnt ro D H F A S.
  set (P := MapGroupReduce i o fk tk range cnt ro) in *.
  assert (X1 : exists r1, In (mkAct r1 P) (as_acts (snd s1))).
  { unfold flatten in F. destruct (flatten_loop cx (as_nres s) (as_acts s)) as [[[l n] ch]| | | |] eqn:E; try discriminate. cbn [obind] in F.
    destruct ch; injection F as <-; cbn [snd as_acts]; [|eauto]. clear -D H E. revert n l E H. generalize (as_nres s). generalize true. induction (as_acts s) as [|a t IH]; intros c n0 n l E H; [destruct H|].
    cbn [flatten_loop] in E. destruct (flatten_one cx n0 a) as [[[xs n1] c1]| | | |] eqn:E1; try discriminate. cbn [obind] in E.
    destruct (flatten_loop cx n1 t) as [[[ys n2] c2]| | | |] eqn:E2; try discriminate. cbn [obind] in E. injection E as <- _ _.
    destruct H as [->|H].
    - assert (K : exists k, (do x <- aseq_add (mkAct r P) k; Ok (x, n0, false)) = Ok (xs, n1, c1)).
      { exists (3 * r + 1). unfold flatten_one in E1. cbn [a_par a_round P] in E1. destruct (cx_dims cx) as [|[|d]]; try congruence; exact E1. }
      destruct K as [k K]. destruct (aseq_add (mkAct r P) k) as [xs'| | | |] eqn:E3; try discriminate. cbn [obind] in K. injection K as <- _ _.
      destruct (add_kept _ _ _ _ _ _ _ _ _ _ E3) as [r1 H1]. exists r1. apply in_or_app. auto.
    - destruct (IH _ _ _ _ E2 H) as [r1 H1]. exists r1. apply in_or_app. auto. }
  destruct X1 as [r1 H1].
  assert (X2 : exists r2, In (mkAct r2 P) (as_acts (snd s2))).
  { unfold replace_allreduce in A. destruct (allred_loop cx (as_acts (snd s1))) as [[l ch]| | | |] eqn:E; try discriminate. cbn [obind snd fst] in A.
    destruct ch; injection A as <-; cbn [snd as_acts]; [|eauto]. clear -H1 E. revert l E H1. generalize true. induction (as_acts (snd s1)) as [|a t IH]; intros c l E H; [destruct H|].
    cbn [allred_loop] in E. destruct (allred_one cx a) as [[xs c1]| | | |] eqn:E1; try discriminate. cbn [obind] in E.
    destruct (allred_loop cx t) as [[ys c2]| | | |] eqn:E2; try discriminate. cbn [obind fst snd] in E. injection E as <- _.
    destruct H as [->|H].
    - unfold allred_one in E1. cbn [a_par P] in E1. fold P in E1. destruct (aseq_add (mkAct r1 P) (-1)) as [xs'| | | |] eqn:E3; try discriminate. cbn [obind] in E1. injection E1 as <- _.
      destruct (add_kept _ _ _ _ _ _ _ _ _ _ E3) as [r2 H2]. exists r2. apply in_or_app. auto.
    - destruct (IH _ _ eq_refl H) as [r2 H2]. exists r2. apply in_or_app. auto. }
  destruct X2 as [r2 H2].
  unfold split_reduce in S. destruct (negb (existsb is_groupReduce (as_acts (snd s2)))); [injection S as <-; eauto|].
  destruct (split_loop cx (as_nres (snd s2)) (as_acts (snd s2))) as [[l n]| | | |] eqn:E; try discriminate. cbn [obind] in S. injection S as <-. cbn [snd fst as_acts].
  clear -H2 E. revert E H2. generalize (as_nres (snd s2)). revert l n. induction (as_acts (snd s2)) as [|a t IH]; intros l n n0 E H; [destruct H|].
  cbn [split_loop] in E. destruct (split_one cx n0 a) as [[xs n1]| | | |] eqn:E1; try discriminate. cbn [obind snd fst] in E.
  destruct (split_loop cx n1 t) as [[ys n2]| | | |] eqn:E2; try discriminate. cbn [obind snd fst] in E. injection E as <- _.
  destruct H as [->|H].
  - unfold split_one in E1. cbn [a_par a_round P] in E1. fold P in E1. destruct (aseq_add (mkAct r2 P) (3 * r2 + 1)) as [xs'| | | |] eqn:E3; try discriminate. cbn [obind] in E1. injection E1 as <- _.
    destruct (add_kept _ _ _ _ _ _ _ _ _ _ E3) as [r3 H3]. exists r3. apply in_or_app. auto.
  - destruct (IH _ _ _ E2 H) as [r3 H3]. exists r3. apply in_or_app. auto.
Qed.

(* 2d, both processes own all indexes before and afterwards; the reduction of the switch *)
Example C67_nd_case : let cx := mkCtx 8 2 2 0 [] (Some [mkAMap 0 100]) (Some [mkAMap 0 200]) in
  let s := mkSeq [mkAct 0 (MapGroupReduce (-1) (-1) 0 0 (mkBox (mkIdx 0 0 0) (mkIdx 4 4 0)) 16 RO_Sum)] 0 [] 0 in
  exists s1 s2 s3, flatten cx s = Ok s1 /\ replace_allreduce cx (snd s1) = Ok s2 /\ split_reduce cx (snd s2) = Ok s3 /\ snd s3 = s.
Proof. do 3 eexists. vmsplit. Qed.

Print Assumptions C67_same.
Print Assumptions C67_meaning.
Print Assumptions C67_replaced.
Print Assumptions C67_case.
Print Assumptions C67_nd_refuted.
Print Assumptions C67_nd_case.
