(* Property C62: a 1d container over its life behaves like private copies which are combined by
   switches, and like one array if each index is written by its only owner *)
From Coq Require Import ZArith List Bool Lia ZifyBool ZifyNat Sorted Permutation.
From Verif Require Import Base ListFacts Model_Space Model_Mem Model_Type Model_RangeList Model_Layout Model_Partitioner Model_Group Model_Transition Model_Data Model_Action Model_ActionTrans Model_ActionExec Model_ActionExec2 Model_Net Model_Switch Model_Container.
From Verif Require Import Spec_Space Spec_RangeList Spec_Partitioner Spec_Type Spec_Layout Spec_Data Spec_Transition Spec_Action Spec_ActionTrans Spec_Async Spec_Reduce Spec_Net Spec_Switch Spec_Container.
From Verif Require Proof_Trans8.
From Verif Require Import Proof_RangeList Proof_Partitioner2 Proof_RangeList4 Proof_RangeList5 Proof_Trans1 Proof_Trans6 Proof_Data Proof_Data3 Proof_Data4 Proof_Data6 Proof_Type Proof_Type2 Proof_Comb3 Proof_Reduce2 Proof_Group Proof_Net Proof_Switch1 Proof_Switch8 Proof_Switch9 Proof_Switch10 Proof_Container Proof_Container2.
From Verif Require Import Proof_Partitioner Proof_Layout2 Proof_Reduce4 Prop_Type Prop_Partitioner Prop_Transition Prop_Data Prop_Switch.
Import ListNotations.
Open Scope Z_scope.

(* In a state with memory for all indexes of each process, each index of a process can be read
   and written: it has an address, and only one value. *)
Theorem C62_access : forall d N s p gi, Sound d N s -> 0 <= p < N ->
  (OwnsZ (c_l s) p gi <-> exists v, Reads d s p gi v) /\
  (forall v v', Reads d s p gi v -> Reads d s p gi v' -> v = v') /\
  (OwnsZ (c_l s) p gi -> forall qb T gen ini v, Z.of_nat (length v) = dc_es d -> exists s', CStep d qb N T gen ini s (CWrite p gi v) s').
Proof.
  intros d N s p gi HS Hp. split; [|split].
  - rewrite (reads_ex d N s p gi HS Hp). split; [intros (a & A); exists (rdb (c_mem s p) a (dc_es d)), a; auto|intros (v & a & A & _); eauto].
  - intros v v'. eapply reads_fun; eauto.
  - intros Ho qb T gen ini v Hv. apply (reads_ex d N s p gi HS Hp) in Ho. destruct Ho as (a & A). eexists. eapply CStep_write; eauto.
Qed.

(* Every switch succeeds: its first part on each process; the messages, however the processes are
   scheduled; and the rest on each process *)
Theorem C62_progress : forall d qb N T gen ini s tl flow red js, 0 < dc_es d -> dc_map0 d = None -> c_qsort rb_cmp qb -> Sound d N s ->
  Request d N T ini (c_l s) tl flow red ->
  (forall p, 0 <= p < N -> Joins d qb N (c_l s) tl flow red p (c_maps s p) (js p)) ->
  exists t cx acts,
    (forall p, 0 <= p < N -> switch_begin d N p (c_maps s p) (js p) = Ok (t p, cx p, acts p)) /\
    ((forall p, 0 <= p < N -> BuffersFor (acts p) (j_place (js p)) (blocks (c_maps s p) ++ blocks (t p))) ->
     AlwaysEnds N (switch_net T js cx acts (c_mem s)) (fun p st => (forall q, 0 <= q < N -> p_in st (Peer q) = []) /\
       exists m' fr, switch_finish gen d ini (c_maps s p) (js p) (c_mem s p) (p_mem st) = Ok (t p, m', fr))).
Proof.
  intros d qb N T gen ini s tl flow red js Hes Hm0 Hq HS RQ HJ.
  destruct (switch_all d Hes Hm0 qb Hq N T gen ini s HS tl flow red RQ js HJ) as (t & cx & acts & B & C). exists t, cx, acts. split; auto. intros HB.
  intros sched y Hs Hy. destruct (C HB sched y Hs Hy) as [C1 C2]. split; auto. intros HD p Hp. destruct (C2 HD p Hp) as (C3 & m' & fr & C4 & _). eauto.
Qed.

(* The values: after any history of writes and switches, each process finds for each of its
   indexes the value of its private copy, where a switch gives each new owner the reduction of
   the copies of all old owners, or the neutral element. *)
Theorem C62_history : forall d qb N T gen ini ops s s' A, 0 < dc_es d -> dc_map0 d = None -> c_qsort rb_cmp qb -> Sound d N s ->
  CRun d qb N T gen ini s ops s' -> (forall p gi, OwnsZ (c_l s) p gi -> Reads d s p gi (A p gi)) ->
  Sound d N s' /\ exists A', CopyRun T (c_l s) A ops (c_l s') A' /\ forall p gi, OwnsZ (c_l s') p gi -> Reads d s' p gi (A' p gi).
Proof.
  intros d qb N T gen ini ops s s' A Hes Hm0 Hq HS R. revert HS A. induction R as [s|s o s1 r s2 R1 R2 IH]; intros HS A HA.
  - split; auto. exists A. split; auto. constructor.
  - assert (K : Sound d N s1 /\ exists A1, CopyStep T (c_l s) A o (c_l s1) A1 /\ forall p gi, OwnsZ (c_l s1) p gi -> Reads d s1 p gi (A1 p gi)).
    { destruct o as [p gi v|tl flow red].
      - inversion R1 as [? ? ? ? a Hp Ha Hv|]; subst. destruct (write_ok d N s p gi v a Hes HS Hp Ha Hv) as (W1 & W2 & W3). split; auto.
        exists (fun q gj => if (q =? p) && (gj =? gi) then v else A q gj). split.
        + cbn [CopyStep store_at c_l]. split; auto. split; [rewrite !Z.eqb_refl; auto|]. intros q gj H. destruct ((q =? p) && (gj =? gi)) eqn:E; auto. lia.
        + intros q gj Ho. cbv beta. assert (Hq' : 0 <= q < N) by (apply (owns_proc d N s q gj HS); exact Ho). destruct ((q =? p) && (gj =? gi)) eqn:E.
          * assert (q = p /\ gj = gi) as [-> ->] by lia. exact W2.
          * apply W3; auto; lia.
      - destruct (step_new d qb N T gen ini s tl flow red s1 Hes Hm0 Hq HS R1) as (E & S1 & V). split; auto.
        assert (Hsp : sp_dims (dc_space d) = 1%nat) by apply (so_dims _ _ _ HS).
        (* the value found *)
        set (A1 := fun p gi => match find (fun z => (i0 (b_from (t_box z)) <=? gi) && (gi <? i0 (b_to (t_box z))) && (t_task z =? p)) (rl_trs tl) with
                     | Some z => match get_map_1d (Some (c_maps s1 p)) (t_mapNo z), maplocal2global_1d d (Some (c_maps s1 p)) (t_mapNo z) 0 with
                                 | Ok (base, _), Ok lo => rdb (c_mem s1 p) (base + (gi - lo) * dc_es d) (dc_es d) | _, _ => [] end
                     | None => [] end).
        assert (H1 : forall p gi, OwnsZ tl p gi -> Reads d s1 p gi (A1 p gi)).
        { intros p gi Ho. assert (Ho' : OwnsZ (c_l s1) p gi) by (rewrite E; auto). assert (Hp := owns_proc d N s1 p gi S1 Ho'). destruct (V p gi Ho) as (v & (a & Ha & Hv) & _).
          destruct (so_maps _ _ _ S1 p Hp) as [G C]. pose proof Ha as (n & x & base & count & lo & X1 & X2 & X3 & X4 & X5 & X6). rewrite E in X1.
          assert (F1 : FrozenList tl) by (rewrite <- E; apply (so_fz _ _ _ S1)).
          unfold A1. destruct (frozen_range_in _ _ _ _ F1 X1) as [I1 I2]. apply inbox1 in X2.
          destruct (find _ (rl_trs tl)) as [z|] eqn:Ef; [|exfalso; assert (I3 := List.find_none _ _ Ef _ I1); cbv beta in I3; lia].
          apply List.find_some in Ef. destruct Ef as [Z1 Z2]. assert (Z3 : t_task z = p) by lia.
          destruct (FrozenList_Frozen _ F1) as [F' _].
          assert (Zn : exists k, rl_tidrange tl p k = Ok (Some z)).
          { assert (0 <= p < rl_tids tl) by (rewrite <- E, (so_tids _ _ _ S1); auto).
            assert (Iz : In z (mine p (rl_trs tl))) by (apply filter_In; split; auto; lia). apply In_nth_error in Iz. destruct Iz as (k & Hk).
            exists (Z.of_nat k). rewrite (frozen_tidrange tl F' p (Z.of_nat k)) by auto. replace (Z.of_nat k <? 0) with false by lia. rewrite Nat2Z.id, Hk. auto. }
          destruct Zn as (k & Hk). assert (D := so_disj _ _ _ S1). rewrite E in D.
          assert (k = n). { apply (D p k n z x (mkIdx gi 0 0)); auto; rewrite <- E, (so_sp _ _ _ S1), Hsp; apply inbox1; lia. }
          subst k. assert (Ez : z = x) by congruence. rewrite Ez in *. rewrite X3, X4. exists a. split; auto. rewrite X6. reflexivity. }
        exists A1. split; [|intros p gi Ho; rewrite E in Ho; auto]. split; auto. intros p gi Ho. destruct (V p gi Ho) as (v & V1 & V2).
        assert (Hp : 0 <= p < N) by (apply (owns_proc d N s1 p gi S1); rewrite E; exact Ho). assert (A1 p gi = v) by (eapply reads_fun; eauto). subst v. unfold New in V2. destruct flow; auto.
        destruct V2 as (ts & vs & W1 & W2 & W3 & W4). exists ts. conjs; auto. rewrite W4. f_equal.
        clear W4 W1. assert (Hin : forall t, In t ts -> OwnsZ (c_l s) t gi) by (intros t Ht; apply W2; auto). clear W2.
        induction W3 as [|t w ts vs X1 X2 IHf]; auto. cbn [map]. assert (Ht := Hin t (or_introl eq_refl)). f_equal.
        + exact (reads_fun d N s t gi _ _ HS (owns_proc d N s t gi HS Ht) X1 (HA t gi Ht)).
        + apply IHf. intros u Hu. apply Hin. right. auto. }
    destruct K as (S1 & A1 & K1 & K2). destruct (IH S1 A1 K2) as (S2 & A2 & K3 & K4). split; auto. exists A2. split; auto. econstructor; eauto.
Qed.

(* One array: if each write is done by the only owner of the index, each process finds for each
   of its indexes the value of the array. *)
Theorem C62_array : forall d qb N T gen ini ops s s' G G', 0 < dc_es d -> dc_map0 d = None -> c_qsort rb_cmp qb -> Sound d N s ->
  CRun d qb N T gen ini s ops s' -> (forall p gi v, OwnsZ (c_l s) p gi -> G gi = Some v -> Reads d s p gi v) ->
  ArrayRun T (c_l s) G ops (c_l s') G' -> forall p gi v, OwnsZ (c_l s') p gi -> G' gi = Some v -> Reads d s' p gi v.
Proof.
  intros d qb N T gen ini ops s s' G G' Hes Hm0 Hq HS R. revert HS G. remember (c_l s') as lz eqn:Elz. induction R as [s|s o s1 r s2 R1 R2 IH]; intros HS G HG HR; subst lz.
  - inversion HR; subst. auto.
  - inversion HR as [|? ? ? l1 G1 ? ? ? AS AR]; subst.
    assert (K : Sound d N s1 /\ c_l s1 = l1 /\ forall p gi v, OwnsZ (c_l s1) p gi -> G1 gi = Some v -> Reads d s1 p gi v).
    { destruct o as [p gi v|tl flow red].
      - inversion R1 as [? ? ? ? a Hp Ha Hv|]; subst. destruct (write_ok d N s p gi v a Hes HS Hp Ha Hv) as (W1 & W2 & W3). destruct AS as (A0 & A1 & A2 & A3). subst l1. split; auto. split; auto.
        intros q gj w Ho Hw. change (c_l (store_at s p a v)) with (c_l s) in Ho. assert (Hq' := owns_proc d N s q gj HS Ho). destruct (Z.eq_dec gj gi) as [->|Hne].
        + apply A1 in Ho. subst q. rewrite A2 in Hw. injection Hw as <-. exact W2.
        + rewrite A3 in Hw by auto. apply W3; auto.
      - destruct (step_new d qb N T gen ini s tl flow red s1 Hes Hm0 Hq HS R1) as (E & S1 & V). destruct AS as [-> A1]. split; auto. split; auto.
        intros p gi v Ho Hv. rewrite E in Ho. destruct (V p gi Ho) as (w & W1 & W2). specialize (A1 gi v Hv). unfold New in W2. destruct flow; [destruct A1| |].
        + destruct A1 as [A1 A2]. destruct W2 as (ts & vs & N1 & N2 & N3 & ->).
          assert (Hall : forall u, In u vs -> u = v).
          { assert (Hin : forall t, In t ts -> OwnsZ (c_l s) t gi) by (intros t Ht; apply N2; auto). clear - N3 Hin HG A1 HS. induction N3 as [|t w ts vs X1 X2 IHf]; intros u Hu; [destruct Hu|].
            assert (Ht := Hin t (or_introl eq_refl)). destruct Hu as [<-|Hu]; [|apply IHf; auto; intros x Hx; apply Hin; right; auto].
            apply (reads_fun d N s t gi); auto. eapply owns_proc; eauto. }
          assert (Hlen : length ts = length vs) by (clear - N3; induction N3; simpl; auto).
          assert (Hred : reduce_all T red 1 vs = v); [|rewrite Hred in W1; exact W1].
          destruct A2 as [(o & Oo)|((o & Oo) & Id)].
          * assert (ts = [o]) as ->.
            { destruct ts as [|x ts]; [exfalso; apply (proj2 (N2 o)), Oo; auto|]. assert (x = o) by (apply Oo, N2; left; auto). subst x.
              destruct ts as [|b ts]; auto. exfalso. inversion N1 as [|? ? M1 M2]; subst. apply M1. left. apply Oo, N2. right. left. auto. }
            destruct vs as [|u [|? ?]]; try discriminate. cbn. apply Hall. left. auto.
          * assert (Hts : ts <> []) by (intros ->; apply N2 in Oo; destruct Oo). destruct vs as [|u vs]; [destruct ts; [congruence|discriminate]|].
            assert (u = v) by (apply Hall; left; auto). subst u.
            cbn [reduce_all]. clear - Hall Id. induction vs as [|u vs IHv]; auto. cbn [fold_left]. assert (u = v) by (apply Hall; right; left; auto). subst u. rewrite Id. apply IHv. intros w [H|H]; apply Hall; [left|right; right]; auto.
        + subst v. rewrite W2 in W1. exact W1. }
    destruct K as (S1 & <- & K). eapply IH; eauto.
Qed.

(* The first switch of a container without a partitioning provides the memory: afterwards, all
   above applies. With an initialisation, all indexes have the neutral element. *)
Record JoinsFirst (d : dcont) (qb : list border -> list border) (tl : rlist) (flow : dataflow) (red : redop) (me : Z) (j : join) : Prop := {
  jf_own : OwnRanges (dc_space d) tl me;
  jf_next : prepare_maps d tl me = Ok (j_next j);
  jf_fresh : FreshFor (dc_es d) (j_addr j) (j_next j) [];
  jf_space : space_eq (pa_space (np_p (j_to j))) (dc_space d) = true;
  jf_me : g_myid (pa_group (np_p (j_to j))) = me;
  jf_my : exists l, pa_my (np_p (j_to j)) = Some l /\ FrozenList l /\ 0 <= me < rl_tids l /\ forall n, rl_tidrange l me n = rl_tidrange tl me n;
  jf_calc : exists tr, calc_transition qb (dc_space d) None (Some (j_to j)) flow red = Ok (Some tr) /\ tr_ops tr = j_ops j }.
Theorem C62_first : forall d qb N T gen ini tl flow red js m, 0 < dc_es d -> dc_map0 d = None -> flow <> DF_Preserve ->
  Request d N T ini tl tl flow red -> (forall p, 0 <= p < N -> JoinsFirst d qb tl flow red p (js p)) ->
  exists s, c_l s = tl /\ (forall p, 0 <= p < N -> switch_first gen d ini (js p) (m p) = Ok (c_maps s p, c_mem s p, [])) /\ Sound d N s /\
    (flow = DF_Init -> forall p gi, OwnsZ tl p gi -> Reads d s p gi (dt_init T red 1)).
Proof.
  intros d qb N T gen ini tl flow red js m Hes Hm0 NP RQ HJ. assert (G := rq_good _ _ _ _ _ _ _ _ RQ). assert (Ed := gd_dims _ _ _ _ G).
  assert (Hd : valid_dims (sp_dims (dc_space d))) by (rewrite Ed; left; auto).
  destruct (choice_range (mkMl None None [], fun _ => 0) (fun p v => switch_first gen d ini (js p) (m p) = Ok (fst v, snd v, []) /\
    GoodList (dc_space d) (dc_es d) (fst v) /\ Covers tl p (fst v) /\ (flow = DF_Init -> forall gi a, ElemAt d tl p (fst v) gi a -> rdb (snd v) a (dc_es d) = dt_init T red 1)) N) as (f & Hf).
  { intros p Hp. destruct (HJ p Hp) as [J1 J2 J3 J4 J5 J6 (tr & J7 & J8)].
    destruct (C37_switch d (mkDs None []) tl p Hd Hes Hm0 (Reached_new _) J1) as (nx & P1 & P2 & P3). assert (nx = j_next (js p)) by congruence. subst nx.
    destruct (P3 (j_addr (js p)) J3) as (t1 & fl' & t & S1 & S2 & S3 & S4 & _). cbn [ds_act] in S1.
    destruct (quiet_calc d N T ini tl tl flow red RQ NP None (j_to (js p)) tr p (conj J4 J5) ltac:(lia) J6 qb J7) as ((Q1 & Q2 & Q3 & Q4) & Q5 & Q6). rewrite J8 in *.
    destruct (quiet_memory d Hes N T ini tl tl flow red RQ NP p t (j_ops (js p)) (m p) S3 S4 (conj Q1 (conj Q2 (conj Q3 Q4))) Q5 Q6) as (m' & M1 & M2 & _).
    exists (t, m'). cbn [fst snd]. conjs; auto. unfold switch_first, do_transition. rewrite S1. cbn [obind fst snd]. rewrite S2. cbn [obind]. rewrite Q1, Q2, Q3, Q4. cbn [obind]. rewrite M1. cbn [obind].
    assert (fl' = None) as ->; [|reflexivity]. clear - S1. unfold check_map_reuse in S1. repeat match type of S1 with context [match ?x with _ => _ end] => destruct x; try discriminate end; congruence. }
  exists (mkC tl (fun p => fst (f p)) (fun p => snd (f p))). cbn [c_l c_maps c_mem]. split; auto. split; [intros p Hp; apply (Hf p Hp)|].
  assert (S : Sound d N (mkC tl (fun p => fst (f p)) (fun p => snd (f p)))).
  { destruct G. split; cbn [c_l c_maps]; auto. intros p Hp. destruct (Hf p Hp) as (_ & F1 & F2 & _). auto. }
  split; auto. intros EF p gi Ho. assert (Hp := owns_proc d N _ p gi S Ho). destruct (Hf p Hp) as (_ & F1 & F2 & F3).
  apply (reads_ex d N _ p gi S Hp) in Ho. destruct Ho as (a & Ha). exists a. split; auto. cbn [c_mem c_maps] in *. symmetry. apply (F3 EF gi a Ha).
Qed.

(* The predefined types: initialisation writes the neutral element into each element *)
Lemma fill_shift bs n : forall m m' a a' k, 0 <= k < Z.of_nat n * Z.of_nat (length bs) -> fill n m a bs (a + k) = fill n m' a' bs (a' + k).
Proof.
  induction n as [|n IH]; intros m m' a a' k Hk; [lia|]. cbn [fill]. destruct (Z_lt_dec k (Z.of_nat (length bs))) as [H|H].
  - destruct (fill_spec n (mwrite m a bs) (a + Z.of_nat (length bs)) bs) as [C _]. destruct (fill_spec n (mwrite m' a' bs) (a' + Z.of_nat (length bs)) bs) as [C' _].
    rewrite C by lia. rewrite C' by lia. rewrite !mwrite_in by lia. f_equal. lia.
  - replace (a + k) with (a + Z.of_nat (length bs) + (k - Z.of_nat (length bs))) by ring. replace (a' + k) with (a' + Z.of_nat (length bs) + (k - Z.of_nat (length bs))) by ring.
    apply IH. lia.
Qed.
Lemma fill_write bs c m a sz b : 0 < c -> Z.of_nat (length bs) = sz -> fill (Z.to_nat c) m a bs b = mwrite m a (rdb (fill (Z.to_nat c) (fun _ => 0) 0 bs) 0 (c * sz)) b.
Proof.
  intros Hc Hs. assert (L := rdb_length (fill (Z.to_nat c) (fun _ => 0) 0 bs) 0 (c * sz) ltac:(nia)).
  destruct (Z_lt_dec b a) as [H|H]; [|destruct (Z_lt_dec b (a + c * sz)) as [H'|H']].
  - rewrite mwrite_out by lia. apply (proj1 (fill_spec (Z.to_nat c) m a bs)). lia.
  - rewrite mwrite_in by lia. rewrite rdb_nth by lia. replace b with (a + (b - a)) at 1 by ring. apply fill_shift. rewrite Hs. nia.
  - rewrite mwrite_out by lia. apply (proj1 (fill_spec (Z.to_nat c) m a bs)). rewrite Hs. nia.
Qed.
Theorem C62_integers : forall T o, IntType T -> it_initval T o <> None -> InitBy (int_dt T) (it_init T) o.
Proof.
  intros T o _ Ho m a c Hc. unfold int_dt, bytes_init, it_init. cbn [dt_init]. destruct (it_initval T o) as [v|]; [|congruence]. eexists. split; [reflexivity|].
  intros b. apply fill_write; auto. rewrite store_length. auto.
Qed.
Theorem C62_floats : forall F o, FType F -> ft_initval F o <> None -> InitBy (float_dt F) (ft_init F) o.
Proof.
  intros F o HF Ho m a c Hc. unfold float_dt, bytes_init, ft_init. cbn [dt_init]. destruct (ft_initval F o) as [v|]; [|congruence]. eexists. split; [reflexivity|].
  intros b. apply fill_write; auto. unfold ft_store. f_equal. apply enc_length.
Qed.
(* copies of the same value stay the same with minimum, maximum, and, or *)
Theorem C62_same_copies : forall T o z, IntType T -> Fits T z -> In o [RO_Min; RO_Max; RO_And; RO_Or] -> dt_red (int_dt T) o 1 (it_store T z) (it_store T z) = it_store T z.
Proof.
  intros T o z IT HF Ho. assert (Hs := it_size_pos T IT).
  assert (Hop : exists f, it_op T o = Some f /\ (forall x, f x x = Ok x) /\ TotalOp T o).
  { destruct Ho as [<-|[<-|[<-|[<-|[]]]]]; cbn [it_op]; eexists; (split; [reflexivity|]); (split; [intros x; f_equal|right; split; discriminate]).
    - destruct (x <? x); auto.
    - destruct (x >? x); auto.
    - apply Z.land_diag.
    - apply Z.lor_diag. }
  destruct Hop as (f & Ef & Hf & Tot).
  assert (L : Z.of_nat (length (it_store T z)) = 1 * Z.of_nat (it_size T)) by (rewrite store_length; lia).
  rewrite <- (element_whole (Z.of_nat (it_size T)) (dt_red (int_dt T) o 1 (it_store T z) (it_store T z))).
  - unfold int_dt. cbn [dt_red].
    apply (gen_red Z (it_size T) (it_load T) (it_store T) f (it_initval T o)) with (ini := it_init T); auto using store_length; try lia.
    + intros a b. destruct (op_total T o f IT Ef Tot (it_load T a) (it_load T b)) as (v & E & _); eauto using load_fits.
    + intros. unfold it_reduce, gen_reduce. rewrite Ef. reflexivity.
    + rewrite (element_whole (Z.of_nat (it_size T)) (it_store T z)) by lia. rewrite load_store by auto. apply Hf.
  - lia.
  - rewrite (proj2 (ew_size _ _ _ (C26_integers T o IT ltac:(congruence) Tot) 1 ltac:(lia))); lia.
Qed.

(* ---------- cases ---------- *)

(* 3 processes, 20 uint32, the memory of the case of C26: a switch from [0,12) and [6,20) with a
   sum to blocks; process 0 writes index 6; a switch to blocks with halos *)
Definition ct_ini := it_init T_uint32.
Definition ct_j (first : bool) (fl tl : rlist) (flow : dataflow) (red : redop) (a p : Z) : join :=
  mkJoin (sw_prep tl p) (ex_np 1 20 3 p fl) (ex_np 2 20 3 p tl)
    (match calc_transition ex_qb (exsp 20) (if first then None else Some (ex_np 1 20 3 p fl)) (Some (ex_np 2 20 3 p tl)) flow red with Ok (Some tr) => tr_ops tr | _ => tops_empty end)
    (fun k => a + 100 * k) (fun _ => 5000) (fun _ => skip).
Definition ct_go (maps : mlist) (fl tl : rlist) (flow : dataflow) (red : redop) (a p : Z) : mlist * list action :=
  match switch_begin sw_d 3 p maps (ct_j false fl tl flow red a p) with Ok (t, _, acts) => (t, acts) | _ => (mkMl None None [], []) end.
Definition ct_bufs (acts : list action) (bl : list (Z * Z)) : bool :=
  forallb (fun a => match a_par a with BufReserve size id _ => (id =? 100) && (0 <=? size) | _ => true end) acts && forallb (fun b => fst b + snd b <=? 5000) bl.
Lemma ct_bufs_ok acts bl : ct_bufs acts bl = true -> BuffersFor acts (fun _ => 5000) bl.
Proof.
  intros H. unfold ct_bufs in H. apply andb_true_iff in H. destruct H as [H1 H2]. rewrite forallb_forall in H1, H2.
  assert (K : forall id size, Reserves acts id size -> id = 100 /\ 0 <= size) by (intros id size (r & off & H); specialize (H1 _ H); cbn [a_par] in H1; lia).
  split.
  - intros id size b HR Hb. apply K in HR. specialize (H2 b Hb). cbv beta in H2. unfold AwayB, Away. cbn [fst snd]. lia.
  - intros id size id' size' HR HR' Hne. apply K in HR. apply K in HR'. lia.
Qed.
Definition ct_freshb (first : bool) (fl tl : rlist) (flow : dataflow) (red : redop) (a p : Z) (used : list (Z * Z)) : bool :=
  let j := ct_j first fl tl flow red a p in
  let ks := seq 0 (length (ml_maps (j_next j))) in
  match prepare_maps sw_d tl p with Ok _ => true | _ => false end &&
  forallb (fun k => (0 <? j_addr j (Z.of_nat k)) && forallb (awayb (j_addr j (Z.of_nat k), xsize 4 (j_next j) k)) used &&
     forallb (fun i => Nat.eqb i k || awayb (j_addr j (Z.of_nat k), xsize 4 (j_next j) k) (j_addr j (Z.of_nat i), xsize 4 (j_next j) i)) ks) ks &&
  match calc_transition ex_qb (exsp 20) (if first then None else Some (ex_np 1 20 3 p fl)) (Some (ex_np 2 20 3 p tl)) flow red with Ok (Some _) => true | _ => false end.
Definition ct_ok (maps : mlist) (fl tl : rlist) (flow : dataflow) (red : redop) (a p : Z) : bool :=
  ct_freshb false fl tl flow red a p (blocks maps) &&
  ct_bufs (snd (ct_go maps fl tl flow red a p)) (blocks maps ++ blocks (fst (ct_go maps fl tl flow red a p))).
(* every switch whose memory is fresh can be done *)
Lemma ct_switch s tl flow red a : Sound sw_d 3 s -> Request sw_d 3 (int_dt T_uint32) ct_ini (c_l s) tl flow red -> forallb (fun x => t_mapNo x =? 0) (rl_trs tl) = true ->
  (forall p, 0 <= p < 3 -> ct_ok (c_maps s p) (c_l s) tl flow red a p = true) ->
  exists s', CStep sw_d ex_qb 3 (int_dt T_uint32) false ct_ini s (CSwitch tl flow red) s' /\ c_l s' = tl /\
    forall p, 0 <= p < 3 -> c_maps s' p = fst (ct_go (c_maps s p) (c_l s) tl flow red a p).
Proof.
  intros HS RQ HM HK. assert (G := rq_good _ _ _ _ _ _ _ _ RQ).
  assert (HJ : forall p, 0 <= p < 3 -> Joins sw_d ex_qb 3 (c_l s) tl flow red p (c_maps s p) (ct_j false (c_l s) tl flow red a p)).
  { intros p Hp. specialize (HK p Hp). unfold ct_ok, ct_freshb in HK. rewrite !andb_true_iff in HK. destruct HK as [[[K1 K2] K3] K5].
    split; cbn [ct_j j_next j_from j_to j_ops j_addr].
    + apply sw_own; auto; try apply G. rewrite (gd_tltids _ _ _ _ G). auto.
    + unfold sw_prep. destruct (prepare_maps sw_d tl p); try discriminate. reflexivity.
    + apply fresh_ok. exact K2.
    + apply ex_sees; auto.
    + exists tl. split; [reflexivity|]. split; [apply G|]. rewrite (gd_tltids _ _ _ _ G). auto.
    + cbn [sw_d dc_space]. destruct (calc_transition ex_qb (exsp 20) (Some (ex_np 1 20 3 p (c_l s))) (Some (ex_np 2 20 3 p tl)) flow red) as [[tr|]| | | |]; try discriminate. eauto. }
  destruct (C62_progress sw_d ex_qb 3 (int_dt T_uint32) false ct_ini s tl flow red _ eq_refl eq_refl ex_qb_ok HS RQ HJ) as (t & cx & acts & B & C).
  assert (E : forall p, 0 <= p < 3 -> ct_go (c_maps s p) (c_l s) tl flow red a p = (t p, acts p)) by (intros p Hp; unfold ct_go; rewrite (B p Hp); reflexivity).
  assert (HB : forall p, 0 <= p < 3 -> BuffersFor (acts p) (j_place (ct_j false (c_l s) tl flow red a p)) (blocks (c_maps s p) ++ blocks (t p))).
  { intros p Hp. specialize (HK p Hp). unfold ct_ok in HK. rewrite (E p Hp) in HK. apply andb_true_iff in HK. apply ct_bufs_ok. apply HK. }
  specialize (C HB). destruct (C [] _ ltac:(intros ? []) eq_refl) as [(sched & y & S1 & S2 & S3) _].
  destruct (C sched y S1 S2) as [_ D]. specialize (D S3).
  destruct (choice_range (fun _ => 0, []) (fun p v => switch_finish false sw_d ct_ini (c_maps s p) (ct_j false (c_l s) tl flow red a p) (c_mem s p) (p_mem (pr_st (y p))) = Ok (t p, fst v, snd v)) 3) as (f & Hf).
  { intros p Hp. destruct (D p Hp) as (_ & m' & fr & D2). exists (m', fr). exact D2. }
  exists (mkC tl t (fun p => fst (f p))). split; [|split; [reflexivity|intros p Hp; rewrite (E p Hp); reflexivity]].
  apply (CStep_switch sw_d ex_qb 3 (int_dt T_uint32) false ct_ini s tl flow red (ct_j false (c_l s) tl flow red a) t cx acts sched y t _ (fun p => snd (f p))); auto.
Qed.
Definition ct_holders (l : rlist) (gi : Z) := filter (fun x => (i0 (b_from (t_box x)) <=? gi) && (gi <? i0 (b_to (t_box x)))) (rl_trs l).
Lemma ct_owns l t gi : FrozenList l -> sp_dims (rl_space l) = 1%nat -> (OwnsZ l t gi <-> In t (map t_task (ct_holders l gi))).
Proof.
  intros FL Hd. unfold OwnsZ. rewrite (owns_iff_trs l t _ FL), in_map_iff, Hd. unfold ct_holders. split.
  - intros (x & A & B & C & _). cbn [i0] in C. exists x. split; auto. apply filter_In. split; auto. lia.
  - intros (x & A & B). apply filter_In in B. destruct B as [B C]. exists x. split; auto. split; auto. unfold InBox. cbn [i0 i1 i2]. conjs; intros; lia.
Qed.
Lemma ct_only l t gi : FrozenList l -> sp_dims (rl_space l) = 1%nat -> map t_task (ct_holders l gi) = [t] -> OnlyOwnerZ l t gi.
Proof. intros FL Hd E p. change (OwnsZ l p gi <-> p = t). rewrite ct_owns, E by auto. simpl. intuition congruence. Qed.

Definition ct_s0 : cstate := mkC ex_two sw_old sw_mem.
Lemma ct_sound0 : Sound sw_d 3 ct_s0.
Proof.
  assert (G := ex_good_tb). destruct G. split; cbn [ct_s0 c_l c_maps]; auto. intros p Hp. destruct (sw_ready p Hp) as [A B _ _ _ _ _]. split; [exact A|exact B].
Qed.
Definition ct_blk (p : Z) : mlist := fst (ct_go (sw_old p) ex_two ex_blk DF_Preserve RO_Sum 2000 p).
Lemma ct_req1 : Request sw_d 3 (int_dt T_uint32) ct_ini ex_two ex_blk DF_Preserve RO_Sum.
Proof. destruct C26_case as (_ & _ & G & _ & _ & E & R). split; auto. discriminate. Qed.
Lemma ct_req2 : Request sw_d 3 (int_dt T_uint32) ct_ini ex_blk ex_hal DF_Preserve RO_None.
Proof.
  split; [exact ex_good_bh|intros _|discriminate]. split; [intros H; congruence|].
  apply (small_reducible 4 ex_blk ex_hal 0 20); try reflexivity; try lia; [exact ex_blk_frozen|vm_compute; congruence].
Qed.
Lemma ct_check1 : forall p, 0 <= p < 3 -> ct_ok (sw_old p) ex_two ex_blk DF_Preserve RO_Sum 2000 p = true.
Proof. apply sw_three; vm_compute; reflexivity. Qed.
Lemma ct_check2 : forall p, 0 <= p < 3 -> ct_ok (ct_blk p) ex_blk ex_hal DF_Preserve RO_None 3000 p = true.
Proof. apply sw_three; vm_compute; reflexivity. Qed.
(* index 6 has the written value on process 0 and 1, index 2 its first value *)
Definition ct_ops : list cop := [CSwitch ex_blk DF_Preserve RO_Sum; CWrite 0 6 [1; 2; 3; 4]; CSwitch ex_hal DF_Preserve RO_None].
Definition ct_G (k : nat) : array := fun gi => if gi =? 2 then Some [2; 0; 0; 0] else if gi =? 6 then match k with O => None | _ => Some [1; 2; 3; 4] end else None.
Lemma ct_reads0 : forall p gi v, OwnsZ ex_two p gi -> ct_G 0 gi = Some v -> Reads sw_d ct_s0 p gi v.
Proof.
  intros p gi v Ho Hv. unfold ct_G in Hv. destruct (gi =? 2) eqn:E2; [|destruct (gi =? 6); discriminate]. assert (gi = 2) by lia. subst gi. injection Hv as <-.
  apply ct_owns in Ho; [|exact ex_two_frozen|reflexivity]. vm_compute in Ho. destruct Ho as [<-|[]].
  exists 1008. split; [|vm_compute; reflexivity]. eexists 0, _, _, _, _. split; [vm_compute; reflexivity|]. split; [unfold InBox; simpl; conjs; intros; lia|].
  split; [vm_compute; reflexivity|]. split; [vm_compute; reflexivity|]. split; [lia|reflexivity].
Qed.
Example C62_case : exists s3, CRun sw_d ex_qb 3 (int_dt T_uint32) false ct_ini ct_s0 ct_ops s3 /\ Sound sw_d 3 ct_s0 /\
  (forall p gi v, OwnsZ ex_two p gi -> ct_G 0 gi = Some v -> Reads sw_d ct_s0 p gi v) /\ ArrayRun (int_dt T_uint32) ex_two (ct_G 0) ct_ops ex_hal (ct_G 1) /\
  Reads sw_d s3 0 6 [1; 2; 3; 4] /\ Reads sw_d s3 1 6 [1; 2; 3; 4] /\ Reads sw_d s3 0 2 [2; 0; 0; 0].
Proof.
  destruct (ct_switch ct_s0 ex_blk DF_Preserve RO_Sum 2000 ct_sound0 ct_req1 eq_refl ct_check1) as (s1 & A1 & A2 & A3).
  destruct (step_new sw_d ex_qb 3 (int_dt T_uint32) false ct_ini ct_s0 ex_blk DF_Preserve RO_Sum s1 eq_refl eq_refl ex_qb_ok ct_sound0 A1) as (_ & S1 & _).
  assert (O6 : OwnsZ (c_l s1) 0 6) by (rewrite A2; apply ct_owns; [exact ex_blk_frozen|reflexivity|vm_compute; auto]).
  destruct (proj2 (proj2 (C62_access sw_d 3 s1 0 6 S1 ltac:(lia))) O6 ex_qb (int_dt T_uint32) false ct_ini [1; 2; 3; 4] eq_refl) as (s2 & B1).
  assert (B : c_l s2 = ex_blk /\ (forall p, 0 <= p < 3 -> c_maps s2 p = ct_blk p) /\ Sound sw_d 3 s2).
  { inversion B1 as [? ? ? ? a Hp Ha Hv|]; subst. split; [exact A2|]. split; [exact A3|]. destruct (write_ok sw_d 3 s1 0 6 [1; 2; 3; 4] a eq_refl S1 Hp Ha Hv) as (W1 & _). exact W1. }
  destruct B as (B2 & B3 & S2).
  destruct (ct_switch s2 ex_hal DF_Preserve RO_None 3000 S2) as (s3 & C1 & C2 & _).
  { rewrite B2. exact ct_req2. }
  { reflexivity. }
  { intros p Hp. rewrite B2, (B3 p Hp). apply ct_check2; auto. }
  assert (R : CRun sw_d ex_qb 3 (int_dt T_uint32) false ct_ini ct_s0 ct_ops s3).
  { unfold ct_ops. econstructor; [exact A1|]. econstructor; [exact B1|]. econstructor; [exact C1|]. constructor. }
  assert (AR : ArrayRun (int_dt T_uint32) ex_two (ct_G 0) ct_ops ex_hal (ct_G 1)).
  { unfold ct_ops. apply (ArrayRun_cons _ _ _ _ ex_blk (ct_G 0)).
    { split; auto. intros gi v Hv. split; auto. unfold ct_G in Hv. destruct (gi =? 2) eqn:E2; [|destruct (gi =? 6); discriminate]. assert (gi = 2) by lia. subst gi.
      left. exists 0. apply ct_only; [exact ex_two_frozen|reflexivity|vm_compute; reflexivity]. }
    apply (ArrayRun_cons _ _ _ _ ex_blk (ct_G 1)).
    { split; auto. split; [apply ct_only; [exact ex_blk_frozen|reflexivity|vm_compute; reflexivity]|]. split; [reflexivity|]. intros gj Hne. unfold ct_G. destruct (gj =? 2); auto. destruct (gj =? 6) eqn:E; auto. lia. }
    apply (ArrayRun_cons _ _ _ _ ex_hal (ct_G 1)); [|constructor].
    split; auto. intros gi v Hv. split; auto. left. exists 0. unfold ct_G in Hv. assert (gi = 2 \/ gi = 6) as [->| ->] by (destruct (gi =? 2) eqn:E2; [lia|destruct (gi =? 6) eqn:E6; [lia|discriminate]]).
    all: apply ct_only; [exact ex_blk_frozen|reflexivity|vm_compute; reflexivity]. }
  exists s3. split; auto. split; [exact ct_sound0|]. split; [exact ct_reads0|]. split; [exact AR|].
  rewrite <- C2 in AR. assert (K := C62_array sw_d ex_qb 3 (int_dt T_uint32) false ct_ini ct_ops ct_s0 s3 (ct_G 0) (ct_G 1) eq_refl eq_refl ex_qb_ok ct_sound0 R ct_reads0 AR).
  rewrite C2 in K. conjs; apply K; try reflexivity; apply ct_owns; try exact ex_hal_frozen; try reflexivity; vm_compute; auto.
Qed.
(* the first switch of a container, to the blocks, with an initialisation for a sum and then for a product *)
Lemma ct_init_req red : In red [RO_Sum; RO_Prod] -> Request sw_d 3 (int_dt T_uint32) ct_ini ex_blk ex_blk DF_Init red.
Proof.
  intros Hr. assert (IT : IntType T_uint32) by (unfold IntType; simpl; tauto). split; [apply ex_good1d; try reflexivity; try lia; exact ex_blk_frozen|discriminate|]. intros _. split; [|split].
  - apply (C26_integers T_uint32 red IT); [destruct Hr as [<-|[<-|[]]]; discriminate|]. left. intros [H|H]; discriminate.
  - apply (C62_integers T_uint32 red IT). destruct Hr as [<-|[<-|[]]]; discriminate.
  - intros x Hx. assert (E : forallb (fun x => (0 <=? i0 (b_from (t_box x))) && (i0 (b_to (t_box x)) <=? 20)) (rl_trs ex_blk) = true) by reflexivity. rewrite forallb_forall in E. specialize (E x Hx). lia.
Qed.
Example C62_first_case : Request sw_d 3 (int_dt T_uint32) ct_ini ex_blk ex_blk DF_Init RO_Prod /\
  (forall p, 0 <= p < 3 -> JoinsFirst sw_d ex_qb ex_blk DF_Init RO_Prod p (ct_j true ex_blk ex_blk DF_Init RO_Prod 1000 p)) /\
  dt_init (int_dt T_uint32) RO_Prod 1 = [1; 0; 0; 0].
Proof.
  split; [apply ct_init_req; simpl; auto|]. split; [|reflexivity].
  assert (F : forall p, 0 <= p < 3 -> ct_freshb true ex_blk ex_blk DF_Init RO_Prod 1000 p [] = true) by (apply sw_three; vm_compute; reflexivity).
  assert (G : Good1d (exsp 20) 3 ex_blk ex_blk) by (apply ex_good1d; try reflexivity; try lia; exact ex_blk_frozen).
  intros p Hp. specialize (F p Hp). unfold ct_freshb in F. rewrite !andb_true_iff in F. destruct F as [[K1 K2] K3].
  split; cbn [ct_j j_next j_from j_to j_ops j_addr].
  - apply sw_own; [exact ex_blk_frozen|reflexivity|apply G|exact Hp|reflexivity].
  - unfold sw_prep. destruct (prepare_maps sw_d ex_blk p); try discriminate. reflexivity.
  - apply fresh_ok. exact K2.
  - reflexivity.
  - reflexivity.
  - exists ex_blk. split; [reflexivity|]. split; [exact ex_blk_frozen|]. split; [exact Hp|auto].
  - cbn [sw_d dc_space]. destruct (calc_transition ex_qb (exsp 20) None (Some (ex_np 2 20 3 p ex_blk)) DF_Init RO_Prod) as [[tr|]| | | |]; try discriminate. eauto.
Qed.

(* ---------- laik_global2maplocal_1d, laik_global2local_1d ---------- *)

(* If the maps of a process do not overlap, the translation of an own index gives the map and the
   offset of the element *)
Theorem C62_global2local : forall d N s p gi, 0 < dc_es d -> Sound d N s -> 0 <= p < N -> MapsApart d (c_maps s p) -> OwnsZ (c_l s) p gi ->
  exists n li base count, global2maplocal_1d d (Some (c_maps s p)) gi = Ok (Some (n, li)) /\ get_map_1d (Some (c_maps s p)) n = Ok (base, count) /\
    ElemAt d (c_l s) p (c_maps s p) gi (base + li * dc_es d).
Proof.
  intros d N s p gi Hes HS Hp HA Ho. assert (HS' := HS). destruct HS' as [S1 S2 S3 S4 S5 S6]. destruct (S6 p Hp) as [HG HC].
  destruct (C45_global2local (dc_space d) (dc_es d) d (c_maps s p) gi eq_refl S3 Hes HG) as [(n & li & m & E1 & E2 & E3)|[E1 E2]].
  - assert (Em := E2). apply (map_1d d S3 (c_maps s p) HG) in E2. destruct E2 as (M1 & M2 & _).
    exists n, li, (m_base m), (i0 (b_to (r_box (m_req m))) - i0 (b_from (r_box (m_req m)))). split; auto. split; auto.
    assert (Hn : li = gi - i0 (b_from (r_box (m_req m))) /\ i0 (b_from (r_box (m_req m))) <= gi < i0 (b_to (r_box (m_req m)))).
    { clear - E1 Em S3. unfold global2maplocal_1d in E1. rewrite S3 in E1. cbn [Nat.eqb cassert] in E1. injection E1 as E1.
      assert (K : forall l i, g2l_loop gi i l = Some (n, li) -> exists y, i <= n /\ nth_error l (Z.to_nat (n - i)) = Some y /\ li = gi - i0 (b_from (r_box (m_req y))) /\ i0 (b_from (r_box (m_req y))) <= gi < i0 (b_to (r_box (m_req y)))).
      { induction l as [|y l IH]; intros i H; [discriminate|]. cbn [g2l_loop] in H.
        destruct (gi <? i0 (b_from (r_box (m_req y)))) eqn:T1; [|destruct (gi >=? i0 (b_to (r_box (m_req y)))) eqn:T2].
        1,2: apply IH in H; destruct H as (z & Z1 & Z2 & Z3); exists z; split; [lia|]; split; auto; replace (Z.to_nat (n - i)) with (S (Z.to_nat (n - (i + 1)))) by lia; exact Z2.
        injection H as <- <-. exists y. rewrite Z.sub_diag. conjs; auto; lia. }
      destruct (K _ _ E1) as (y & K1 & K2 & K3). rewrite Z.sub_0_r in K2. unfold aread in Em. destruct (n <? 0) eqn:Tn; [lia|]. rewrite K2 in Em. injection Em as <-. auto. }
    destruct Hn as [-> Hn].
    apply (reads_ex d N s p gi HS Hp) in Ho. destruct Ho as (a & Ha). assert (Ha' := Ha).
    destruct Ha' as (k & x & base' & count' & lo' & A1 & A2 & A3 & A4 & A5 & A6).
    assert (n = t_mapNo x) by (eapply (HA n (t_mapNo x)); eauto; lia). subst n. rewrite M1 in A3. injection A3 as <- <-. rewrite M2 in A4. injection A4 as <-. subst a. exact Ha.
  - exfalso. apply (reads_ex d N s p gi HS Hp) in Ho. destruct Ho as (a & k & x & base' & count' & lo' & A1 & A2 & A3 & A4 & A5 & A6).
    destruct (cv_in _ _ _ HC k x A1) as (m & Hm & Hs). rewrite S2, S3 in Hs. apply (E2 _ _ Hm). apply Hs. exact A2.
Qed.
(* in particular if there is only one map (all own ranges have the same tag) *)
Lemma one_map_apart d ml : length (ml_maps ml) = 1%nat -> MapsApart d ml.
Proof.
  intros H k k' base count lo base' count' lo' gi _ A _ _ B _.
  assert (K : forall j x, maplocal2global_1d d (Some ml) j 0 = Ok x -> j = 0).
  { intros j x E. unfold maplocal2global_1d in E. destruct (Nat.eqb (sp_dims (dc_space d)) 1); cbn [cassert] in E; [|discriminate].
    destruct (aread (ml_maps ml) j) as [m| | | |] eqn:Em; try discriminate. apply aread_iff in Em. destruct Em as [E1 E2].
    assert (E3 : nth_error (ml_maps ml) (Z.to_nat j) <> None) by congruence. apply nth_error_Some in E3. lia. }
  rewrite (K _ _ A), (K _ _ B). reflexivity.
Qed.
Example C62_global2local_case : Sound sw_d 3 ct_s0 /\ MapsApart sw_d (c_maps ct_s0 1) /\ OwnsZ (c_l ct_s0) 1 9 /\
  global2maplocal_1d sw_d (Some (c_maps ct_s0 1)) 9 = Ok (Some (0, 3)).
Proof.
  split; [exact ct_sound0|]. split; [apply one_map_apart; vm_compute; reflexivity|]. split; [apply ct_owns; [exact ex_two_frozen|reflexivity|vm_compute; auto]|vm_compute; reflexivity].
Qed.

(* Finding: one process has [0,2) and [8,20) with tag 1, [2,8) with tag 2. Its first map is for
   [0,20), its second for [2,8). Index 4 is translated to the first map, but its value is in the
   second: at the place given by the translation, a value written to the element is not found. *)
Definition gx_l : rlist := Eval vm_compute in
  ex_run 20 1 [ACrange 0 (exrng 20 0 2) 1; ACrange 0 (exrng 20 8 20) 1; ACrange 0 (exrng 20 2 8) 2].
Lemma gx_frozen : FrozenList gx_l.
Proof. apply (ex_run_frozen 20 1 [ACrange 0 (exrng 20 0 2) 1; ACrange 0 (exrng 20 8 20) 1; ACrange 0 (exrng 20 2 8) 2]); [lia|vm_compute; reflexivity]. Qed.
Definition gx_to : npart := ex_np 2 20 1 0 gx_l.
Definition gx_j : join := mkJoin (sw_prep gx_l 0) gx_to gx_to tops_empty (fun k => 1000 + 100 * k) (fun _ => 5000) (fun _ => skip).
Definition gx_maps : mlist := Eval vm_compute in match switch_first false sw_d ct_ini gx_j (fun _ => 0) with Ok (t, _, _) => t | _ => mkMl None None [] end.
Lemma gx_range n x : rl_tidrange gx_l 0 n = Ok (Some x) -> 0 <= n < 3 /\ rl_tidrange gx_l 0 n = Ok (Some x).
Proof.
  intros R. split; auto. unfold rl_tidrange in R. cbn [gx_l rl_off rl_tids] in R. change ((0 <=? 0) && (0 <? 1)) with true in R. cbn [cassert] in R.
  change (aread [0; 3] (0 + 1)) with (@Ok Z 3) in R. change (aread [0; 3] 0) with (@Ok Z 0) in R. cbn [obind] in R. destruct ((n <? 0) || (n >=? 3 - 0)) eqn:E; [discriminate|lia].
Qed.
Lemma gx_own : OwnRanges (exsp 20) gx_l 0.
Proof.
  assert (N3 : forall n, 0 <= n < 3 -> n = 0 \/ n = 1 \/ n = 2) by (intros; lia). split.
  - exact gx_frozen.
  - reflexivity.
  - change (0 <= 0 < 1). lia.
  - intros n x R. apply gx_range in R. destruct R as [Hn R]. apply N3 in Hn. destruct Hn as [->|[->| ->]]; vm_compute in R; injection R as <-.
    + exists (mkIdx 0 0 0). unfold InBox; simpl. conjs; intros; lia.
    + exists (mkIdx 8 0 0). unfold InBox; simpl. conjs; intros; lia.
    + exists (mkIdx 2 0 0). unfold InBox; simpl. conjs; intros; lia.
  - intros x R. vm_compute in R. injection R as <-. reflexivity.
  - intros n x y R1 R2. apply gx_range in R1. apply gx_range in R2. destruct R1 as [Hn R1]. destruct R2 as [Hn2 R2]. assert (n = 0 \/ n = 1) as [->| ->] by lia; vm_compute in R1, R2; injection R1 as <-; injection R2 as <-; simpl; auto.
  - exists 20. split; [exact xcount|reflexivity].
Qed.
Theorem C62_global2local_refuted : exists d N s p gi n li base count, 0 < dc_es d /\ Sound d N s /\ 0 <= p < N /\ OwnsZ (c_l s) p gi /\
  global2maplocal_1d d (Some (c_maps s p)) gi = Ok (Some (n, li)) /\ get_map_1d (Some (c_maps s p)) n = Ok (base, count) /\
  forall qb T gen ini v s', CStep d qb N T gen ini s (CWrite p gi v) s' ->
    rdb (c_mem s' p) (base + li * dc_es d) (dc_es d) = rdb (c_mem s p) (base + li * dc_es d) (dc_es d).
Proof.
  assert (G : Good1d (exsp 20) 1 gx_l gx_l) by (apply ex_good1d; try reflexivity; try lia; exact gx_frozen).
  destruct (C62_first sw_d ex_qb 1 (int_dt T_uint32) false ct_ini gx_l DF_None RO_None (fun _ => gx_j) (fun _ _ => 0)) as (s & A1 & A2 & A3 & _).
  - reflexivity.
  - reflexivity.
  - discriminate.
  - split; [exact G|discriminate|discriminate].
  - intros p Hp. assert (p = 0) by lia. subst p. split; cbn [gx_j j_next j_from j_to j_ops j_addr].
    + exact gx_own.
    + vm_compute. reflexivity.
    + apply fresh_ok. vm_compute. reflexivity.
    + reflexivity.
    + reflexivity.
    + exists gx_l. split; [reflexivity|]. split; [exact gx_frozen|]. split; [change (0 <= 0 < 1); lia|auto].
    + eexists. split; vm_compute; reflexivity.
  - specialize (A2 0 ltac:(lia)). assert (E : exists m fr, switch_first false sw_d ct_ini gx_j (fun _ => 0) = Ok (gx_maps, m, fr)) by (do 2 eexists; vm_compute; reflexivity).
    destruct E as (m0 & fr & E). rewrite E in A2. injection A2 as A2 _. symmetry in A2. clear E.
    exists sw_d, 1, s, 0, 4, 0, 4, 1000, 20. split; [reflexivity|]. split; [exact A3|]. split; [lia|]. split; [rewrite A1; apply ct_owns; [exact gx_frozen|reflexivity|vm_compute; auto]|].
    rewrite A2. split; [vm_compute; reflexivity|]. split; [vm_compute; reflexivity|].
    intros qb T gen ini v s' HW. inversion HW as [? ? ? ? a Hp Ha Hv|]; subst. cbn [store_at c_mem]. rewrite Z.eqb_refl.
    assert (a = 1108).
    { destruct Ha as (n & x & base & count & lo & B1 & B2 & B3 & B4 & B5 & B6). rewrite A1 in B1. rewrite A2 in B3, B4. apply gx_range in B1. destruct B1 as [Hn B1].
      assert (n = 0 \/ n = 1 \/ n = 2) as [->|[->| ->]] by lia; vm_compute in B1; injection B1 as <-; apply inbox1 in B2; cbn [t_box b_from b_to i0] in B2; try lia.
      vm_compute in B3, B4. injection B3 as <- <-. injection B4 as <-. subst a. reflexivity. }
    subst a. change (dc_es sw_d) with 4 in *. unfold rdb. apply mread_ext. intros y Hy. rewrite mwrite_out; auto. change (bytes 4) with 4%nat in Hy. lia.
Qed.

(* ---------- finding: an initialisation of indexes which do not fit into an int ---------- *)

(* one process, indexes from 2^31 to 2^31 + 4 *)
Definition cb_sp : space := mkSpace 7 1 (mkBox (mkIdx (2 ^ 31) 0 0) (mkIdx (2 ^ 31 + 4) 0 0)).
Definition cb_d : dcont := mkDc 4 cb_sp None.
Definition cb_l : rlist := Eval vm_compute in
  match run_partitioner exq (fixed [ACrange 0 (mkRange (Some cb_sp) (sp_box cb_sp)) 0] false) (mkParams cb_sp (exgroup 1 0) None) None with Ok l => l | _ => rl_new (exsp 0) 0 end.
Lemma cb_frozen : FrozenList cb_l.
Proof.
  apply (run_frozen exq (fixed [ACrange 0 (mkRange (Some cb_sp) (sp_box cb_sp)) 0] false) (mkParams cb_sp (exgroup 1 0) None) None); [exact exq_good|left; reflexivity|simpl; lia|vm_compute; reflexivity].
Qed.
Definition cb_to : npart := mkNp 2 (mkPartg cb_sp (exgroup 1 0) [(RIfull, cb_l)]).
Definition cb_j : join :=
  mkJoin (match prepare_maps cb_d cb_l 0 with Ok t => t | _ => mkMl None None [] end) cb_to cb_to
    (match calc_transition ex_qb cb_sp None (Some cb_to) DF_Init RO_Sum with Ok (Some tr) => tr_ops tr | _ => tops_empty end)
    (fun k => 1000) (fun _ => 5000) (fun _ => skip).
Theorem C62_init_refuted : exists d qb T tl j, 0 < dc_es d /\ dc_map0 d = None /\ Good1d (dc_space d) 1 tl tl /\ Elementwise T (dc_es d) RO_Sum /\ InitBy T (it_init T_uint32) RO_Sum /\
  JoinsFirst d qb tl DF_Init RO_Sum 0 j /\ forall gen m, switch_first gen d (it_init T_uint32) j m = Abort.
Proof.
  assert (IT : IntType T_uint32) by (unfold IntType; simpl; tauto).
  exists cb_d, ex_qb, (int_dt T_uint32), cb_l, cb_j. split; [reflexivity|]. split; [reflexivity|].
  assert (K : forall n x, rl_tidrange cb_l 0 n = Ok (Some x) -> In x (rl_trs cb_l)) by (intros n x R; apply (frozen_range_in _ _ _ _ cb_frozen) in R; apply R).
  split; [|split; [|split; [|split]]].
  - constructor; try reflexivity; try exact cb_frozen; try lia; try (apply Proof_Trans8.noempty_check; auto using cb_frozen; reflexivity); try (apply Proof_Trans8.owndisjoint_check; auto using cb_frozen; reflexivity).
  - apply (C26_integers T_uint32 RO_Sum IT); [discriminate|]. left. intros [H|H]; discriminate.
  - apply (C62_integers T_uint32 RO_Sum IT). discriminate.
  - split; cbn [cb_j j_next j_from j_to j_ops j_addr].
    + split.
      * exact cb_frozen.
      * reflexivity.
      * change (0 <= 0 < 1). lia.
      * intros n x R. apply K in R. vm_compute in R. destruct R as [<-|[]]. exists (mkIdx (2 ^ 31) 0 0). unfold InBox; simpl. conjs; intros; lia.
      * intros x R. apply K in R. vm_compute in R. destruct R as [<-|[]]. reflexivity.
      * intros n x y R1 R2. apply K in R1. apply K in R2. vm_compute in R1, R2. destruct R1 as [<-|[]]. destruct R2 as [<-|[]]. left. reflexivity.
      * exists 4. split; [|reflexivity]. apply (vol_count 1 (sp_box cb_sp) (or_introl eq_refl)). exists (mkIdx (2 ^ 31) 0 0). unfold InBox; simpl. conjs; intros; lia.
    + vm_compute. reflexivity.
    + apply fresh_ok. vm_compute. reflexivity.
    + reflexivity.
    + reflexivity.
    + exists cb_l. split; [reflexivity|]. split; [exact cb_frozen|]. split; [change (0 <= 0 < 1); lia|auto].
    + eexists. split; vm_compute; reflexivity.
  - intros gen m. destruct gen; vm_compute; reflexivity.
Qed.

Print Assumptions C62_access.
Print Assumptions C62_progress.
Print Assumptions C62_history.
Print Assumptions C62_array.
Print Assumptions C62_first.
Print Assumptions C62_integers.
Print Assumptions C62_floats.
Print Assumptions C62_same_copies.
Print Assumptions C62_case.
Print Assumptions C62_first_case.
Print Assumptions C62_init_refuted.
Print Assumptions C62_global2local.
Print Assumptions C62_global2local_case.
Print Assumptions C62_global2local_refuted.
