(* A 1d container over its life: switches without messages, one step. *)
From Coq Require Import ZArith List Bool Lia ZifyBool ZifyNat Sorted Permutation.
From Verif Require Import Base ListFacts Model_Space Model_Mem Model_Type Model_RangeList Model_Layout Model_Partitioner Model_Group Model_Transition Model_Data Model_Action Model_ActionTrans Model_ActionExec Model_ActionExec2 Model_Net Model_Switch Model_Container.
From Verif Require Import Spec_Space Spec_RangeList Spec_Partitioner Spec_Type Spec_Layout Spec_Data Spec_Transition Spec_Action Spec_ActionTrans Spec_Async Spec_Reduce Spec_Net Spec_Switch Spec_Container.
From Verif Require Import Proof_Space Proof_RangeList Proof_Partitioner2 Proof_RangeList4 Proof_RangeList5 Proof_Trans1 Proof_Trans6 Proof_Data Proof_Data3 Proof_Data4 Proof_Data6 Proof_Type Proof_Comb3 Proof_Group Proof_Net Proof_Switch1 Proof_Switch8 Proof_Switch9 Proof_Switch10 Proof_Container.
From Verif Require Import Prop_Data Prop_Switch.
Import ListNotations.
Open Scope Z_scope.

Definition Quiet (o : tops) : Prop := tp_send o = [] /\ tp_recv o = [] /\ tp_red o = [] /\ tp_local o = [].
Lemma quiet_plan cx o : Quiet o -> exists s, plan cx o = Ok s /\ as_acts s = [].
Proof.
  intros (A & B & C & _). unfold plan, split_texec. rewrite A, B, C. cbn [omapm obind app]. eexists. split; [reflexivity|reflexivity].
Qed.
Lemma init_ops_ok red L : (forall y, In y L -> box_isEmpty 1 (t_box (snd y)) = false) -> (L <> [] -> is_reduction red = true) -> forall o, exists o', init_ops 1 red L o = Ok o' /\
  tp_init o' = tp_init o ++ map (iop red) L /\ tp_send o' = tp_send o /\ tp_recv o' = tp_recv o /\ tp_red o' = tp_red o /\ tp_local o' = tp_local o.
Proof.
  induction L as [|y L IH]; intros HL HR o.
  - exists o. cbn [map]. rewrite app_nil_r. conjs; auto.
  - unfold init_ops in *. cbn [ofold]. rewrite (HL y (or_introl eq_refl)). rewrite HR by discriminate. cbn [cassert obind].
    destruct (IH (fun z Hz => HL z (or_intror Hz)) (fun _ => HR ltac:(discriminate)) (add_init o (mkInitT (t_box (snd y)) (fst y) (t_mapNo (snd y)) red))) as (o' & E & A1 & A2 & A3 & A4 & A5).
    exists o'. split; [rewrite HR in E by discriminate; cbn [cassert] in E; exact E|]. rewrite A1, A2, A3, A4, A5. cbn [add_init tp_init tp_send tp_recv tp_red tp_local map]. rewrite <- app_assoc. conjs; auto.
Qed.
Lemma init_ops_red red L o o' : init_ops 1 red L o = Ok o' -> (forall y, In y L -> box_isEmpty 1 (t_box (snd y)) = false) -> L <> [] -> is_reduction red = true.
Proof.
  destruct L as [|y L]; [congruence|]. intros E HL _. unfold init_ops in E. cbn [ofold] in E. rewrite (HL y (or_introl eq_refl)) in E.
  destruct (is_reduction red); auto. discriminate.
Qed.

Section Quiet.
  Variable d : dcont.
  Let sp := dc_space d.
  Let es := dc_es d.
  Hypothesis Hes : 0 < es.
  Hypothesis Hm0 : dc_map0 d = None.
  Variable N : Z.
  Variables (T : dtype) (gen : bool) (ini : mem -> Z -> Z -> redop -> outcome mem).
  Variables fl tl : rlist.
  Variable flow : dataflow.
  Variable red : redop.
  Hypothesis RQ : Request d N T ini fl tl flow red.
  Hypothesis NP : flow <> DF_Preserve.
  Let G := rq_good _ _ _ _ _ _ _ _ RQ.

  Lemma not_empty me n x : rl_tidrange tl me n = Ok (Some x) -> box_isEmpty 1 (t_box x) = false.
  Proof.
    intros R. assert (H := gd_tlne _ _ _ _ G me n x R). rewrite (gd_tlsp _ _ _ _ G) in H. rewrite (gd_dims _ _ _ _ G) in H.
    apply box_isEmpty_spec. exact H.
  Qed.
  (* the operations: only initialisations, of all own ranges *)
  Lemma quiet_calc from to tr me : (match from with Some f => Sees sp N me fl tl f to | None => space_eq (pa_space (np_p to)) sp = true /\ g_myid (pa_group (np_p to)) = me end) -> 0 <= me ->
    (exists l, pa_my (np_p to) = Some l /\ FrozenList l /\ 0 <= me < rl_tids l /\ forall n, rl_tidrange l me n = rl_tidrange tl me n) -> forall qb,
    calc_transition qb sp from (Some to) flow red = Ok (Some tr) -> Quiet (tr_ops tr) /\
    (flow = DF_None -> tp_init (tr_ops tr) = []) /\
    (flow = DF_Init -> exists L, tp_init (tr_ops tr) = map (iop red) L /\ (forall y, In y L <-> rl_tidrange tl me (fst y) = Ok (Some (snd y)))).
  Proof.
    intros HS Hme (l & L1 & L2 & L3 & L4) qb E.
    assert (Ed : sp_dims sp = 1%nat) by apply (gd_dims _ _ _ _ G).
    assert (E' : exists g, g_myid g = me /\ (do o1 <- match flow with DF_Init => do r <- task_ranges l me; init_ops 1 red r tops_empty | _ => Ok tops_empty end; Ok (Some (mkTrans sp g flow red o1))) = Ok (Some tr)).
    { unfold calc_transition in E. destruct from as [f|].
      - destruct HS as [S1 S2 S3 S4 S5 S6 S7 S8]. rewrite S3, Z.eqb_refl in E. cbn [cassert] in E. unfold do_calc_transition, trans_group in E.
        rewrite S1, S2, S3, Z.eqb_refl in E. cbn [cassert obind] in E. rewrite S5 in E. replace (me =? -1) with false in E by lia. rewrite L1, Ed in E.
        exists (pa_group (np_p f)). split; auto. destruct flow; [exact E|congruence|].
        destruct (do r <- task_ranges l me; init_ops 1 red r tops_empty); cbn [obind] in E |- *; auto; discriminate.
      - destruct HS as [S1 S2]. unfold do_calc_transition, trans_group in E. rewrite S1 in E. cbn [cassert obind] in E. rewrite S2 in E. replace (me =? -1) with false in E by lia. rewrite L1, Ed in E.
        exists (pa_group (np_p to)). split; [exact S2|exact E]. }
    clear E. destruct E' as (g & _ & E). assert (NEm := not_empty me). destruct flow eqn:EF; [|congruence|].
    - cbn [obind] in E. injection E as <-. cbn [tr_ops]. split; [unfold Quiet; cbn; auto|]. split; [auto|discriminate].
    - rewrite (task_ranges_ok l me L2 L3) in E. cbn [obind] in E. set (L := numbered (mine me (rl_trs l))) in *.
      assert (HL : forall y, In y L <-> rl_tidrange tl me (fst y) = Ok (Some (snd y))).
      { intros [k x]. unfold L. rewrite numbered_in, <- L4. cbn [fst snd]. destruct (FrozenList_Frozen _ L2) as [F' _]. rewrite (frozen_tidrange l F' me k L3).
        destruct (k <? 0) eqn:Ek; [split; [intros [H _]; lia|discriminate]|]. split; [intros [_ H]; rewrite H; auto|]. intros H. injection H as H. split; [lia|auto]. }
      assert (HN : forall y, In y L -> box_isEmpty 1 (t_box (snd y)) = false) by (intros y Hy; apply HL in Hy; eapply NEm; eauto).
      destruct (init_ops 1 red L tops_empty) as [o| | | |] eqn:Eo; try discriminate. cbn [obind] in E. injection E as <-. cbn [tr_ops].
      destruct (init_ops_ok red L HN (init_ops_red red L _ _ Eo HN) tops_empty) as (o' & Eo' & A1 & A2 & A3 & A4 & A5). assert (o' = o) by congruence. subst o'.
      split; [unfold Quiet; rewrite A2, A3, A4, A5; auto|]. split; [discriminate|]. intros _. exists L. split; auto.
  Qed.

  (* what the rest of the switch does with the memory *)
  Lemma quiet_memory me t o m : GoodList sp es t -> Covers tl me t -> Quiet o -> (flow = DF_None -> tp_init o = []) ->
    (flow = DF_Init -> exists L, tp_init o = map (iop red) L /\ (forall y, In y L <-> rl_tidrange tl me (fst y) = Ok (Some (snd y)))) ->
    exists m', match tp_init o with [] => Ok m | _ => init_maps d ini (tp_init o) t m end = Ok m' /\
      (flow = DF_Init -> forall gi a, ElemAt d tl me t gi a -> rdb m' a es = dt_init T red 1) /\ (flow = DF_None -> m' = m).
  Proof.
    intros HG HC _ H1 H2. assert (Ed := gd_dims _ _ _ _ G). assert (RI := rq_init _ _ _ _ _ _ _ _ RQ). assert (G' := G).
    assert (FI : flow = DF_None \/ flow = DF_Init) by (destruct flow; auto; congruence). destruct FI as [EF|EF].
    - rewrite H1 by auto. exists m. conjs; auto. congruence.
    - destruct (H2 EF) as (L & HL & HI). destruct (RI EF) as (Q1 & Q2 & Q3).
      destruct (init_all d Hes Ed tl me t (gd_tlsp _ _ _ _ G) (gd_tl _ _ _ _ G) (gd_tld _ _ _ _ G) HG HC T ini red Q1 Q2 Q3 (gd_tlne _ _ _ _ G) L (fun y Hy => proj1 (HI y) Hy) m) as (m' & E & A & _).
      exists m'. split; [|split; [|congruence]].
      + rewrite HL. unfold init_maps. destruct L as [|y L]; [exact E|]. cbn [map cassert]. exact E.
      + intros _ gi a HE. apply (elem_ea d Ed tl me t HG HC) in HE. pose proof HE as (n & x & k & X1 & X2 & _). apply (A gi a (n, x)); auto. apply HI. exact X1.
  Qed.
End Quiet.

Definition ReadsL (d : dcont) (l : rlist) (p : Z) (ml : mlist) (m : mem) (gi : Z) (v : list Z) : Prop := exists a, ElemAt d l p ml gi a /\ v = rdb m a (dc_es d).
Definition New (d : dcont) (T : dtype) (s : cstate) (flow : dataflow) (red : redop) (gi : Z) (v : list Z) : Prop :=
  match flow with
  | DF_Preserve => exists ts vs, NoDup ts /\ (forall t, In t ts <-> OwnsZ (c_l s) t gi) /\ Forall2 (fun t w => Reads d s t gi w) ts vs /\ v = reduce_all T red 1 vs
  | DF_Init => v = dt_init T red 1
  | DF_None => True
  end.
Lemma holds_reads d l p ml m gi v : sp_dims (dc_space d) = 1%nat -> GoodList (dc_space d) (dc_es d) ml -> Covers l p ml ->
  Holds (dc_es d) l p ml m (mkIdx gi 0 0) v -> ReadsL d l p ml m gi v.
Proof.
  intros Hd HG HC (n & x & k & A1 & A2 & A3 & A4 & A5). exists (m_base k + (gi - i0 (b_from (r_box (m_req k)))) * dc_es d). split; auto.
  apply (elem_ea d Hd l p ml HG HC). exists n, x, k. conjs; auto; apply A4.
Qed.

Section Switch.
  Variable d : dcont.
  Let sp := dc_space d.
  Let es := dc_es d.
  Hypothesis Hes : 0 < es.
  Hypothesis Hm0 : dc_map0 d = None.
  Variable qb : list border -> list border.
  Hypothesis Hq : c_qsort rb_cmp qb.
  Variable N : Z.
  Variables (T : dtype) (gen : bool) (ini : mem -> Z -> Z -> redop -> outcome mem).
  Variable s : cstate.
  Hypothesis HS : Sound d N s.
  Variable tl : rlist.
  Variable flow : dataflow.
  Variable red : redop.
  Hypothesis RQ : Request d N T ini (c_l s) tl flow red.
  Variable js : Z -> join.
  Hypothesis HJ : forall p, 0 <= p < N -> Joins d qb N (c_l s) tl flow red p (c_maps s p) (js p).

  Definition After (t : Z -> mlist) (p : Z) (st : pst) : Prop :=
    (forall q, 0 <= q < N -> p_in st (Peer q) = []) /\
    exists m' fr, switch_finish gen d ini (c_maps s p) (js p) (c_mem s p) (p_mem st) = Ok (t p, m', fr) /\
      GoodList sp es (t p) /\ Covers tl p (t p) /\
      forall gi, OwnsZ tl p gi -> exists v, ReadsL d tl p (t p) m' gi v /\ New d T s flow red gi v.

  Lemma switch_all : exists t cx acts,
    (forall p, 0 <= p < N -> switch_begin d N p (c_maps s p) (js p) = Ok (t p, cx p, acts p)) /\
    ((forall p, 0 <= p < N -> BuffersFor (acts p) (j_place (js p)) (blocks (c_maps s p) ++ blocks (t p))) ->
     AlwaysEnds N (switch_net T js cx acts (c_mem s)) (After t)).
  Proof.
    assert (G := rq_good _ _ _ _ _ _ _ _ RQ). assert (Ed := gd_dims _ _ _ _ G).
    assert (FI : flow = DF_Preserve \/ flow <> DF_Preserve) by (destruct flow; auto; right; discriminate). destruct FI as [EF|EF].
    - destruct (rq_pres _ _ _ _ _ _ _ _ RQ EF) as [R1 R2].
      set (x := fun p => mkProc (c_maps s p) (j_next (js p)) (c_mem s p) (j_from (js p)) (j_to (js p)) (j_ops (js p)) (j_addr (js p))).
      assert (HX : forall p, 0 <= p < N -> Ready d qb N (c_l s) tl red p (x p)).
      { intros p Hp. destruct (HJ p Hp) as [J1 J2 J3 J4 J5 J6]. destruct (so_maps _ _ _ HS p Hp) as [S1 S2]. rewrite EF in J6.
        split; cbn [x pc_old pc_next pc_mem pc_from pc_to pc_ops pc_addr]; auto. }
      destruct (C26_switch_partial d qb N (c_l s) tl red T x gen ini Hes Hm0 G Hq HX R1 R2) as (t & cx & acts & B & C).
      exists t, cx, acts. split; [exact B|]. intros HB. specialize (C (fun p => j_place (js p)) (fun p => j_oth (js p)) HB).
      intros sched y Hs Hy. destruct (C sched y Hs Hy) as [C1 C2]. split; auto. intros HD p Hp. destruct (C2 HD p Hp) as (C3 & m' & fr & C4 & C5 & C6 & C7 & _).
      split; auto. exists m', fr. split; [exact C4|]. split; [exact C5|]. split; [exact C6|]. intros gi Ho. destruct (C7 _ Ho) as (v & V1 & V2). exists v. split; [apply holds_reads; auto|].
      rewrite EF. destruct V2 as (ts & vs & W1 & W2 & W3 & W4). exists ts, vs. conjs; auto.
      clear - W3 W2 HS Ed G. assert (Hin : forall t, In t ts -> OwnsZ (c_l s) t gi) by (intros t Ht; apply W2; auto). clear W2.
      induction W3 as [|t w ts vs H1 H2 IH]; constructor.
      + assert (Ht := Hin t (or_introl eq_refl)). assert (Hr : 0 <= t < N).
        { destruct Ht as (n & y & R & _). destruct (FrozenList_Frozen _ (gd_fl _ _ _ _ G)) as [F' _]. apply (frozen_range_in _ _ _ _ (gd_fl _ _ _ _ G)) in R. destruct R as [R1 R2].
          assert (K := proj1 (Forall_forall _ _) (fz_tasks _ F') y R1). cbv beta in K. rewrite <- (gd_fltids _ _ _ _ G). lia. }
        destruct (so_maps _ _ _ HS t Hr) as [S1 S2]. apply holds_reads; auto.
      + apply IH. intros u Hu. apply Hin. right. auto.
    - destruct (choice_range (mkMl None None [], mkMl None None []) (fun p v => Alloc d tl p (c_maps s p) (j_next (js p)) (j_addr (js p)) (fst v) (snd v)) N) as (tF & HA).
      { intros p Hp. destruct (HJ p Hp) as [J1 J2 J3 J4 J5 J6]. destruct (so_maps _ _ _ HS p Hp) as [S1 S2].
        destruct (alloc_ok d Hes Hm0 N (c_l s) tl G p (c_maps s p) (j_next (js p)) (j_addr (js p)) S1 J1 J2 J3) as (t & F' & H). exists (t, F'). exact H. }
      set (t := fun p => fst (tF p)). set (cx := fun p => trans_ctx d N p (j_ops (js p)) (Some (snd (tF p))) (t p)).
      assert (HQ : forall p, 0 <= p < N -> Quiet (j_ops (js p)) /\ (flow = DF_None -> tp_init (j_ops (js p)) = []) /\
        (flow = DF_Init -> exists L, tp_init (j_ops (js p)) = map (iop red) L /\ (forall y, In y L <-> rl_tidrange tl p (fst y) = Ok (Some (snd y))))).
      { intros p Hp. destruct (HJ p Hp) as [J1 J2 J3 J4 J5 (tr & J6 & J7)]. rewrite <- J7.
        apply (quiet_calc d N T ini (c_l s) tl flow red RQ EF (Some (j_from (js p))) (j_to (js p)) tr p J4 ltac:(lia) J5 qb J6). }
      exists t, cx, (fun _ => []). split.
      { intros p Hp. destruct (al_run _ _ _ _ _ _ _ _ (HA p Hp)) as (t1 & R1 & R2). unfold switch_begin, switch_start. rewrite R1. cbn [obind fst snd]. rewrite R2. cbn [obind].
        destruct (quiet_plan (cx p) _ (proj1 (HQ p Hp))) as (sq & E1 & E2). change (trans_ctx d N p (j_ops (js p)) (Some (snd (tF p))) (fst (tF p))) with (cx p). rewrite E1. cbn [obind]. rewrite E2. reflexivity. }
      intros _. unfold switch_net. assert (SR := stage_run N (fun p => repeat skip 0) (c_mem s) _ _ (stage_skips N (fun _ => 0%nat) (fun p mm => mm = c_mem s p)) (fun p _ => eq_refl)).
      intros sched y Hs Hy. destruct (SR sched y Hs Hy) as [C1 C2]. split; auto. intros HD p Hp. destruct (C2 HD p Hp) as [C3 C4]. split; auto.
      destruct (HQ p Hp) as ((Q1 & Q2 & Q3 & Q4) & Q5 & Q6). pose proof (HA p Hp) as [(t1 & A1 & A2) A3 A4 A5 A6 A7].
      destruct (quiet_memory d Hes N T ini (c_l s) tl flow red RQ EF p (t p) (j_ops (js p)) (c_mem s p) A3 A4 (conj Q1 (conj Q2 (conj Q3 Q4))) Q5 Q6) as (m' & M1 & M2 & M3).
      exists m'. eexists. split; [|split; [exact A3|split; [exact A4|]]].
      + unfold switch_finish, do_transition. rewrite A1. cbn [obind fst snd]. rewrite A2. cbn [obind]. rewrite Q1, Q2, Q3, Q4. cbn [obind]. change (fst (tF p)) with (t p). rewrite M1. cbn [obind].
        assert (RES : ml_res (snd (tF p)) = None) by apply A5. rewrite RES. unfold free_list. rewrite RES. cbn [cassert obind]. reflexivity.
      + intros gi Ho. apply (ea_owns d Ed tl p (t p) (gd_tlsp _ _ _ _ G) A4) in Ho. destruct Ho as (a & Ha). apply (elem_ea d Ed tl p (t p) A3 A4) in Ha.
        exists (rdb m' a es). split; [exists a; auto|]. unfold New. destruct flow; auto; [congruence|]. apply (M2 eq_refl gi a Ha).
  Qed.
End Switch.

Lemma reads_fun d N s p gi v v' : Sound d N s -> 0 <= p < N -> Reads d s p gi v -> Reads d s p gi v' -> v = v'.
Proof.
  intros [S1 S2 S3 S4 S5 S6] Hp (a & A & ->) (b & B & ->). destruct (S6 p Hp) as [G C]. apply (elem_ea d S3 _ _ _ G C) in A. apply (elem_ea d S3 _ _ _ G C) in B.
  rewrite (ea_fun d S3 _ _ _ S2 S5 gi a b A B). reflexivity.
Qed.
Lemma owns_proc d N s p gi : Sound d N s -> OwnsZ (c_l s) p gi -> 0 <= p < N.
Proof.
  intros [S1 S2 S3 S4 S5 S6] (n & y & R & _). destruct (FrozenList_Frozen _ S1) as [F' _]. apply (frozen_range_in _ _ _ _ S1) in R. destruct R as [R1 R2].
  assert (K := proj1 (Forall_forall _ _) (fz_tasks _ F') y R1). cbv beta in K. rewrite <- S4. lia.
Qed.
Lemma reads_ex d N s p gi : Sound d N s -> 0 <= p < N -> (OwnsZ (c_l s) p gi <-> exists a, ElemAt d (c_l s) p (c_maps s p) gi a).
Proof.
  intros [S1 S2 S3 S4 S5 S6] Hp. destruct (S6 p Hp) as [G C]. rewrite (ea_owns d S3 _ _ _ S2 C). split; intros (a & A); exists a; apply (elem_ea d S3 _ _ _ G C); auto.
Qed.
Lemma reads_len d s p gi v : 0 < dc_es d -> Reads d s p gi v -> Z.of_nat (length v) = dc_es d.
Proof. intros H (a & _ & ->). apply rdb_length. lia. Qed.

(* one write *)
Lemma write_ok d N s p gi v a : 0 < dc_es d -> Sound d N s -> 0 <= p < N -> ElemAt d (c_l s) p (c_maps s p) gi a -> Z.of_nat (length v) = dc_es d ->
  Sound d N (store_at s p a v) /\ Reads d (store_at s p a v) p gi v /\
  forall q gj w, 0 <= q < N -> (q <> p \/ gj <> gi) -> Reads d s q gj w -> Reads d (store_at s p a v) q gj w.
Proof.
  intros Hes HS Hp HA Hv. pose proof HS as [S1 S2 S3 S4 S5 S6]. destruct (S6 p Hp) as [G C]. split; [|split].
  - split; auto.
  - exists a. split; [exact HA|]. cbn [store_at c_mem]. rewrite Z.eqb_refl. symmetry. apply write_same; auto.
  - intros q gj w Hq Hne (b & HB & ->). exists b. split; [exact HB|]. cbn [store_at c_mem]. destruct (q =? p) eqn:E; auto. assert (q = p) by lia. subst q. destruct Hne as [H|H]; [congruence|].
    symmetry. apply (write_other d S3); auto. apply (elem_ea d S3 _ _ _ G C) in HA. apply (elem_ea d S3 _ _ _ G C) in HB. apply (ea_away d Hes S3 (c_l s) p (c_maps s p) G gi gj); auto.
Qed.


(* processes out of the group do not matter *)
Definition Agree (N : Z) (x y : net) : Prop := forall p, 0 <= p < N -> x p = y p.
Lemma nexec_agree N p x y x' : 0 <= p < N -> Agree N x y -> nexec p x = Some x' -> exists y', nexec p y = Some y' /\ Agree N x' y'.
Proof.
  intros Hp A E. unfold nexec in *. rewrite <- (A p Hp). destruct (pr_code (x p)) as [|i l]; [discriminate|]. destruct (exec_i i (pr_st (x p))) as [s'|]; [|discriminate].
  injection E as <-. eexists. split; [reflexivity|]. intros q Hq. unfold deliver, upd. destruct (q =? p); auto. rewrite (A q Hq). reflexivity.
Qed.
Lemma nrun_agree N sched : Sched N sched -> forall x y x', Agree N x y -> nrun sched x = Some x' -> exists y', nrun sched y = Some y' /\ Agree N x' y'.
Proof.
  induction sched as [|p r IH]; intros HS x y x' A E; cbn [nrun] in *; [injection E as <-; eauto|].
  destruct (nexec p x) as [x1|] eqn:E1; [|discriminate]. destruct (nexec_agree N p x y x1 (HS p (or_introl eq_refl)) A E1) as (y1 & E2 & A1). rewrite E2.
  apply (IH (fun q Hq => HS q (or_intror Hq)) x1 y1 x' A1 E).
Qed.
Lemma ends_agree N x y Q : Agree N x y -> AlwaysEnds N x Q -> AlwaysEnds N y Q.
Proof.
  intros A H sched z Hs Hz. assert (A' : Agree N y x) by (intros p Hp; symmetry; auto). destruct (nrun_agree N sched Hs y x z A' Hz) as (w & Hw & Aw).
  destruct (H sched w Hs Hw) as [(sc & u & U1 & U2 & U3) H2]. split.
  - assert (Aw' : Agree N w z) by (intros p Hp; symmetry; auto). destruct (nrun_agree N sc U1 w z u Aw' U2) as (u' & V1 & V2). exists sc, u'. conjs; auto. intros p Hp. rewrite <- (V2 p Hp). auto.
  - intros HD p Hp. rewrite (Aw p Hp). apply H2; auto. intros q Hq. rewrite <- (Aw q Hq). auto.
Qed.

(* one step: sound again, and the new values *)
Lemma step_new d qb N T gen ini s tl flow red s' : 0 < dc_es d -> dc_map0 d = None -> c_qsort rb_cmp qb -> Sound d N s ->
  CStep d qb N T gen ini s (CSwitch tl flow red) s' -> c_l s' = tl /\ Sound d N s' /\
  forall p gi, OwnsZ tl p gi -> exists v, Reads d s' p gi v /\ New d T s flow red gi v.
Proof.
  intros Hes Hm0 Hq HS H. inversion H as [|? ? ? ? js t cx acts sched y t' m' fr RQ HJ HB HBu Hsc Hrun HD HF]; subst.
  destruct (switch_all d Hes Hm0 qb Hq N T gen ini s HS tl flow red RQ js HJ) as (t0 & cx0 & acts0 & B & C).
  assert (E : forall p, 0 <= p < N -> t0 p = t p /\ cx0 p = cx p /\ acts0 p = acts p).
  { intros p Hp. assert (X := B p Hp). rewrite (HB p Hp) in X. injection X as <- <- <-. auto. }
  assert (C' : AlwaysEnds N (switch_net T js cx acts (c_mem s)) (After d N T gen ini s tl flow red js t0)).
  { apply (ends_agree N (switch_net T js cx0 acts0 (c_mem s))).
    - intros p Hp. unfold switch_net, nstart. destruct (E p Hp) as (_ & -> & ->). reflexivity.
    - apply C. intros p Hp. destruct (E p Hp) as (-> & _ & ->). auto. }
  destruct (C' sched y Hsc Hrun) as [_ C2]. specialize (C2 HD).
  assert (K : forall p, 0 <= p < N -> t' p = t0 p /\ GoodList (dc_space d) (dc_es d) (t' p) /\ Covers tl p (t' p) /\
    forall gi, OwnsZ tl p gi -> exists v, ReadsL d tl p (t' p) (m' p) gi v /\ New d T s flow red gi v).
  { intros p Hp. destruct (C2 p Hp) as (_ & m1 & f1 & K1 & K2 & K3 & K4). rewrite (HF p Hp) in K1. injection K1 as -> -> _. conjs; auto. }
  assert (G := rq_good _ _ _ _ _ _ _ _ RQ). cbn [c_l]. split; auto.
  assert (S' : Sound d N (mkC tl t' m')).
  { destruct G. split; cbn [c_l c_maps]; auto. intros p Hp. destruct (K p Hp) as (_ & K2 & K3 & _). auto. }
  split; auto. intros p gi Ho. assert (Hp : 0 <= p < N) by (apply (owns_proc d N _ p gi S'); exact Ho).
  destruct (K p Hp) as (_ & _ & _ & K4). apply K4. exact Ho.
Qed.
