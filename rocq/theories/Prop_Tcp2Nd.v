(* Property C55: switching a 2d or 3d container to another partitioning with the TCP2 backend *)
From Coq Require Import ZArith List Bool Lia ZifyBool ZifyNat Sorted Permutation.
From Verif Require Import Base ListFacts Model_Space Model_RangeList Model_Mem Model_Type Model_Layout Model_Partitioner Model_Group Model_Transition Model_Data
  Model_Action Model_ActionTrans Model_ActionExec Model_ActionExec2 Model_Net Model_Switch Model_KVS Model_SpaceStore Model_Tcp2 Model_Tcp2Exec.
From Verif Require Import Spec_Space Spec_RangeList Spec_Partitioner Spec_Type Spec_Layout Spec_Data Spec_Transition Spec_Action Spec_ActionTrans Spec_Reduce Spec_Switch Spec_Tcp2Exec Spec_SwitchNd.
From Verif Require Import Proof_Layout2 Proof_RangeList Proof_Partitioner2 Proof_RangeList4 Proof_RangeList5 Proof_Data Proof_Data3 Proof_Group Proof_Trans8 Proof_Net Proof_Switch8 Proof_SwitchNd4 Proof_SwitchNd5.
From Verif Require Import Prop_Partitioner Prop_Layout Prop_Transition Prop_Data Prop_Reduce Prop_Switch Prop_Tcp2Exec Proof_Action5.
Import ListNotations.
Open Scope Z_scope.

(* A group of N processes switches a 2d or 3d container from the ranges [fl] to the ranges [tl] with
   the TCP2 backend, preserving values. Each process has memory for its indexes before, and
   calculated its transition and its mappings on its own, knowing all ranges. No index has two
   owners before. For each pair of processes, the sender has one range before or the receiver has
   one range afterwards. Then the first part of the switch (reuse of memory, allocation, order of
   the messages) succeeds on each process, and with every schedule of the processes
   - no process fails, and if the schedule is fair all processes get done: there is no deadlock
   - then all messages are received and all permissions to send used
   - the switch ends on each process, with memory for all its new indexes, which do not overlap
   - for each index of each new range of each process, it has the value which the owner had before
   - memory outside of the new mappings is not changed *)
Theorem C55_switch_nd : forall d qb N fl tl x gen ini bin q rd,
  0 < dc_es d -> dc_map0 d = None -> GoodNd (dc_space d) N fl tl -> NoEmpty fl -> NoEmpty tl -> Unique fl -> OwnDisjoint fl ->
  (forall s t, 0 <= s < N -> 0 <= t < N -> s <> t -> AtMostOne fl s \/ AtMostOne tl t) ->
  (exists n, HasCount (sp_dims (dc_space d)) (sp_box (dc_space d)) n /\ n < 2 ^ 31) ->
  (forall p, 0 <= p < N -> ReadyNd d qb N fl tl p (x p)) -> FitsNd (dc_space d) bin (dc_es d) ->
  (forall p, 0 <= p < N -> is_qsort (cmp2phase p) (q p)) ->
  (gen = true \/ OneMap fl /\ OneMap tl) ->
  exists t code,
    (forall p, 0 <= p < N -> tcp_start (q p) d N p (pc_addr (x p)) (pc_ops (x p)) (Some (pc_old (x p))) (pc_next (x p)) = Ok (t p, code p)) /\
    TcpEnds rd gen bin (dc_space d) N (tnet_start code (fun p => pc_mem (x p)))
      (fun p mm => exists m' fr,
        do_transition gen d ini (fun _ _ _ => Ok mm) (pc_addr (x p)) (pc_ops (x p)) (Some (pc_old (x p))) (pc_next (x p)) (pc_mem (x p)) = Ok (t p, m', fr) /\
        GoodList (dc_space d) (dc_es d) (t p) /\ Covers tl p (t p) /\
        (forall n y i s k v, rl_tidrange tl p n = Ok (Some y) -> InBox (sp_dims (dc_space d)) i (t_box y) ->
           HoldsAt (dc_space d) (dc_es d) fl s (pc_old (x s)) (pc_mem (x s)) k i v ->
           HoldsAt (dc_space d) (dc_es d) tl p (t p) m' n i v) /\
        (forall a, (forall b, In b (blocks (t p)) -> ~ region (fst b) (snd b) a) -> m' a = pc_mem (x p) a)).
Proof.
  intros d qb N fl tl x gen ini bin q rd Hes Hm0 G NeF NeT U OD Ord Hsz HX Hfit Hqs Hgen.
  assert (Hd : valid_dims (sp_dims (dc_space d))) by (destruct (gn_dims _ _ _ _ G) as [->| ->]; unfold valid_dims; auto).
  destruct (choice_range (mkMl None None [], mkMl None None []) (fun p v => Alloc d tl p (pc_old (x p)) (pc_next (x p)) (pc_addr (x p)) (fst v) (snd v)) N) as (tF & HA).
  { intros p Hp. destruct (HX p Hp) as [X1 X2 X3 X4 X5 X6 X7].
    destruct (alloc_nd d tl p (pc_old (x p)) (pc_next (x p)) (pc_addr (x p)) Hd Hes Hm0 X1 X3 X4 X5) as (t & F' & H). exists (t, F'). exact H. }
  set (t := fun p => fst (tF p)). set (F' := fun p => snd (tF p)). change (forall p, 0 <= p < N -> Alloc d tl p (pc_old (x p)) (pc_next (x p)) (pc_addr (x p)) (t p) (F' p)) in HA.
  clearbody t F'. clear tF.
  eexists t, _. split.
  { intros p Hp. destruct (al_run _ _ _ _ _ _ _ _ (HA p Hp)) as (t1 & R1 & R2). unfold tcp_start. rewrite R1. cbn [obind fst snd]. rewrite R2. cbn [obind].
    rewrite (nd_code d N fl tl G NeF NeT U Ord Hsz qb x HX gen Hgen t F' HA p (q p) Hp (Hqs p Hp)). cbn [obind].
    match goal with |- Ok (_, ?c) = Ok (_, ?h p) => let f := eval pattern p in c in match f with ?g _ => unify h g end end. reflexivity. }
  destruct (nd_run d Hes N fl tl G NeF NeT U OD Ord Hsz qb x HX bin Hfit gen Hgen t F' HA rd _ (fun p _ => eq_refl)) as (E & R & HE).
  intros sched Hs. destruct (R sched Hs) as [R1 R2]. split; [|exact R2].
  intros n. destruct (R1 n) as (s & S1 & S2). exists s. split; [exact S1|]. intros HD p Hp. destruct (S2 HD p Hp) as [Q1 Q2]. split; [|exact Q2].
  rewrite Q1. destruct (nd_finish d Hes N fl tl G NeF NeT U OD Ord Hsz qb x HX gen Hgen t F' HA ini E p Hp HE) as (m' & fr & M1 & M2 & M3).
  exists m', fr. split; [exact M1|]. split; [apply (al_good _ _ _ _ _ _ _ _ (HA p Hp))|]. split; [apply (al_cov _ _ _ _ _ _ _ _ (HA p Hp))|]. split; auto.
Qed.

(* ---------- a case ---------- *)

(* 4x4 elements of 4 bytes on 2 processes: columns before, rows with a halo of 1 row afterwards *)
Definition nx_d : dcont := mkDc 4 (exsp2 4 4) None.
Definition ex_halo2 : rlist := Eval vm_compute in ex_run2 [ACrange 0 (exrng2 0 0 4 3) 0; ACrange 1 (exrng2 0 1 4 4) 0].
Lemma ex_halo2_frozen : FrozenList ex_halo2.
Proof. apply (ex_run2_frozen [ACrange 0 (exrng2 0 0 4 3) 0; ACrange 1 (exrng2 0 1 4 4) 0]). vm_compute. reflexivity. Qed.
Definition nx_a1 (k : Z) : Z := 1000 + 100 * k.
Definition nx_a2 (k : Z) : Z := 2000 + 100 * k.
Definition nx_prep (l : rlist) (p : Z) : mlist := match prepare_maps nx_d l p with Ok t => t | _ => mkMl None None [] end.
Definition nx_old (fl : rlist) (p : Z) : mlist :=
  match (do r <- check_map_reuse 4 (nx_prep fl p) None; allocate_mappings 4 nx_a1 (fst r)) with Ok t => t | _ => mkMl None None [] end.
Definition nx_mem (p a : Z) : Z := if (a mod 4 =? 0) && (1000 <=? a) then (a - 1000) / 4 + 100 * p else 0.
Definition nx_ops (fl tl : rlist) (p : Z) : tops :=
  match calc_transition ex_qb (exsp2 4 4) (Some (ex_np2 1 p fl)) (Some (ex_np2 2 p tl)) DF_Preserve RO_None with Ok (Some tr) => tr_ops tr | _ => tops_empty end.
Definition nx_x (fl tl : rlist) (p : Z) : proc := mkProc (nx_old fl p) (nx_prep tl p) (nx_mem p) (ex_np2 1 p fl) (ex_np2 2 p tl) (nx_ops fl tl p) nx_a2.
Definition nx_code (x : Z -> proc) (p : Z) : list top :=
  match tcp_start (tx_q p) nx_d 2 p (pc_addr (x p)) (pc_ops (x p)) (Some (pc_old (x p))) (pc_next (x p)) with Ok (_, c) => c | _ => [] end.
Definition nx_bin (a q : Z) : bool := a =? 0.
Definition nx_end (gen : bool) (x : Z -> proc) (sched : list Z) : outcome tnet := trun tx_rd gen nx_bin (dc_space nx_d) (tnet_start (nx_code x) (fun p => pc_mem (x p))) sched.
Definition nx_fin (gen : bool) (x : Z -> proc) (s : tnet) (p : Z) : outcome (mlist * mem * list Z) :=
  do_transition gen nx_d xini (fun _ _ _ => Ok (tq_mem (tn_proc s p))) (pc_addr (x p)) (pc_ops (x p)) (Some (pc_old (x p))) (pc_next (x p)) (pc_mem (x p)).
Definition nx_final (gen : bool) (x : Z -> proc) (sched : list Z) (p : Z) : option (list (Z * Z) * list (list Z)) :=
  match nx_end gen x sched with
  | Ok s => if tdone 2 s then
    match nx_fin gen x s p with
    | Ok (t, m, _) => Some (blocks t, flat_map (fun k => map (fun i => mread m (m_base k + 4 * Z.of_nat i) 1) (seq 0 (Z.to_nat (m_count k)))) (ml_maps t))
    | _ => None
    end else None
  | _ => None
  end.
Lemma nx_two (P : Z -> Prop) : P 0 -> P 1 -> forall p, 0 <= p < 2 -> P p.
Proof. intros A B p Hp. assert (p = 0 \/ p = 1) as [->| ->] by lia; auto. Qed.
Lemma nx_count : HasCount 2 (sp_box (exsp2 4 4)) 16.
Proof. apply vol_count; [right; left; reflexivity|]. exists (mkIdx 0 0 0). repeat split; cbn; lia. Qed.
(* all own ranges have map number 0, or the number of the range *)
Definition nx_maps (l : rlist) (p : Z) : bool :=
  let r := filter (fun x => t_task x =? p) (rl_trs l) in
  forallb (fun x => t_mapNo x =? 0) r || forallb (fun z => t_mapNo (snd z) =? Z.of_nat (fst z)) (List.combine (seq 0 (length r)) r).
Lemma nx_own l p : FrozenList l -> rl_space l = exsp2 4 4 -> NoEmpty l -> 0 <= p < rl_tids l -> nx_maps l p = true -> OwnRanges (exsp2 4 4) l p.
Proof.
  intros FL Es NE Hp HB. destruct (FrozenList_Frozen _ FL) as [Fz _].
  assert (R : forall n, rl_tidrange l p n = Ok (if n <? 0 then None else nth_error (mine p (rl_trs l)) (Z.to_nat n))) by (intros; apply frozen_tidrange; auto).
  unfold nx_maps in HB. fold (mine p (rl_trs l)) in HB. set (r := mine p (rl_trs l)) in *.
  assert (K : (forall n y, rl_tidrange l p n = Ok (Some y) -> t_mapNo y = 0) \/ (forall n y, rl_tidrange l p n = Ok (Some y) -> t_mapNo y = n)).
  { apply orb_true_iff in HB. destruct HB as [HB|HB]; rewrite forallb_forall in HB; [left|right]; intros n y H; rewrite R in H; destruct (n <? 0) eqn:En; try discriminate; injection H as H.
    - apply nth_error_In in H. specialize (HB y H). cbv beta in HB. lia.
    - assert (HI : In (Z.to_nat n, y) (List.combine (seq 0 (length r)) r)).
      { assert (Hl : (Z.to_nat n < length r)%nat) by (apply nth_error_Some; congruence). clear - H Hl. apply (nth_error_In _ (Z.to_nat n)).
        generalize (Z.to_nat n) H Hl. clear. intros n H Hl. assert (G : forall k (r : list trg) n y, nth_error r n = Some y -> nth_error (List.combine (seq k (length r)) r) n = Some ((k + n)%nat, y)).
        { intros k r'. revert k. induction r' as [|z r' IH]; intros k [|n'] y' H'; cbn in *; try discriminate; [injection H' as <-; do 2 f_equal; lia|]. rewrite (IH (Datatypes.S k) n' y' H'). do 2 f_equal. lia. }
        rewrite (G 0%nat r n y H). reflexivity. }
      specialize (HB _ HI). cbn [fst snd] in HB. lia. }
  split; auto.
  - intros n y H. rewrite <- Es. eapply NE; eauto.
  - intros y H. destruct K as [K|K]; apply (K _ _ H).
  - intros n y z H1 H2. destruct K as [K|K]; rewrite (K _ _ H1), (K _ _ H2); auto.
  - exists 16. split; [exact nx_count|vm_compute; reflexivity].
Qed.
Lemma nx_ready fl tl : FrozenList fl -> FrozenList tl -> rl_space fl = exsp2 4 4 -> rl_space tl = exsp2 4 4 -> NoEmpty fl -> NoEmpty tl -> rl_tids fl = 2 -> rl_tids tl = 2 ->
  (forall p, 0 <= p < 2 -> nx_maps fl p = true /\ nx_maps tl p = true) ->
  (forall p, 0 <= p < 2 -> FreshFor 4 nx_a1 (nx_prep fl p) [] /\ FreshFor 4 nx_a2 (nx_prep tl p) (blocks (nx_old fl p))) ->
  (forall p, 0 <= p < 2 -> exists o, calc_transition ex_qb (exsp2 4 4) (Some (ex_np2 1 p fl)) (Some (ex_np2 2 p tl)) DF_Preserve RO_None = Ok (Some (mkTrans (exsp2 4 4) (exgroup 2 p) DF_Preserve RO_None o))) ->
  forall p, 0 <= p < 2 -> ReadyNd nx_d ex_qb 2 fl tl p (nx_x fl tl p).
Proof.
  intros F1 F2 S1 S2 N1 N2 T1 T2 HM HF HC p Hp. destruct (HM p Hp) as [M1 M2]. destruct (HF p Hp) as [R1 R2]. destruct (HC p Hp) as (o & C).
  assert (O1 : OwnRanges (exsp2 4 4) fl p) by (apply nx_own; auto; lia). assert (O2 : OwnRanges (exsp2 4 4) tl p) by (apply nx_own; auto; lia).
  destruct (C37_switch nx_d (mkDs None []) fl p (or_intror (or_introl eq_refl)) eq_refl eq_refl (Reached_new _) O1) as (tf & P1 & P2 & P3).
  destruct (C37_switch nx_d (mkDs None []) tl p (or_intror (or_introl eq_refl)) eq_refl eq_refl (Reached_new _) O2) as (tt & Q1 & _).
  assert (EF : nx_prep fl p = tf) by (unfold nx_prep; rewrite P1; reflexivity). assert (ET : nx_prep tl p = tt) by (unfold nx_prep; rewrite Q1; reflexivity).
  destruct (P3 nx_a1) as (t1 & f & t & A1 & A2 & A3 & A4 & _); [rewrite EF in R1; exact R1|]. cbn [ds_act] in A1. change (dc_es nx_d) with 4 in A1, A2.
  assert (EO : nx_old fl p = t) by (unfold nx_old; rewrite EF, A1; cbn [obind fst]; rewrite A2; reflexivity).
  split; cbn [nx_x pc_old pc_next pc_mem pc_from pc_to pc_ops pc_addr].
  - rewrite EO. exact A3.
  - rewrite EO. exact A4.
  - exact O2.
  - rewrite ET. exact Q1.
  - exact R2.
  - apply ex_seesall; auto.
  - unfold nx_ops. rewrite C. eexists. split; [exact C|reflexivity].
Qed.

Example C55_case : 0 < dc_es nx_d /\ dc_map0 nx_d = None /\ GoodNd (dc_space nx_d) 2 ex_cols ex_halo2 /\ NoEmpty ex_cols /\ NoEmpty ex_halo2 /\ Unique ex_cols /\ OwnDisjoint ex_cols /\
  (forall s t, 0 <= s < 2 -> 0 <= t < 2 -> s <> t -> AtMostOne ex_cols s \/ AtMostOne ex_halo2 t) /\
  (exists n, HasCount (sp_dims (dc_space nx_d)) (sp_box (dc_space nx_d)) n /\ n < 2 ^ 31) /\
  (forall p, 0 <= p < 2 -> ReadyNd nx_d ex_qb 2 ex_cols ex_halo2 p (nx_x ex_cols ex_halo2 p)) /\ FitsNd (dc_space nx_d) nx_bin (dc_es nx_d) /\
  (forall p, 0 <= p < 2 -> is_qsort (cmp2phase p) (tx_q p)) /\ OneMap ex_cols /\ OneMap ex_halo2.
Proof.
  assert (N1 : NoEmpty ex_cols) by (apply noempty_check; [exact ex_cols_frozen|reflexivity]). assert (N2 : NoEmpty ex_halo2) by (apply noempty_check; [exact ex_halo2_frozen|reflexivity]).
  assert (OM : forall l, FrozenList l -> forallb (fun x => t_mapNo x =? 0) (rl_trs l) = true -> OneMap l).
  { intros l FL HB t n y R. apply (frozen_range_in _ _ _ _ FL) in R. rewrite forallb_forall in HB. specialize (HB y (proj1 R)). lia. }
  split; [reflexivity|]. split; [reflexivity|]. split; [apply ex_goodnd; try reflexivity; [exact ex_cols_frozen|exact ex_halo2_frozen]|]. split; [exact N1|]. split; [exact N2|].
  split; [apply unique_check; [exact ex_cols_frozen|reflexivity]|]. split; [apply owndisjoint_check; [exact ex_cols_frozen|reflexivity]|].
  split; [intros s t Hs _ _; left; revert s Hs; apply nx_two; reflexivity|]. split; [exists 16; split; [exact nx_count|reflexivity]|].
  split.
  { apply nx_ready; auto using ex_cols_frozen, ex_halo2_frozen.
    - apply nx_two; split; reflexivity.
    - apply nx_two; (split; apply fresh_ok; vm_compute; reflexivity).
    - apply nx_two; eexists; vm_compute; reflexivity. }
  split; [intros a q; unfold nx_bin; destruct (a =? 0); [vm_compute; congruence|split; [vm_compute; congruence|reflexivity]]|].
  split; [intros p _; apply isort_2phase|]. split; apply OM; try reflexivity; [exact ex_cols_frozen|exact ex_halo2_frozen].
Qed.
(* two executions: processes in turn, and process 1 as long as it can go on *)
Definition nx_turn : list Z := concat (repeat [0; 1] 60).
Definition nx_skew : list Z := concat (repeat (repeat 1 20 ++ [0]) 60).
Example C55_case_run : Forall (fun sched =>
  nx_final false (nx_x ex_cols ex_halo2) sched 0 = Some ([(2000, 48)], [[0]; [1]; [100]; [101]; [2]; [3]; [102]; [103]; [4]; [5]; [104]; [105]]) /\
  nx_final false (nx_x ex_cols ex_halo2) sched 1 = Some ([(2000, 48)], [[2]; [3]; [102]; [103]; [4]; [5]; [104]; [105]; [6]; [7]; [106]; [107]])) [nx_turn; nx_skew].
Proof. repeat constructor; vm_compute; reflexivity. Qed.

(* two ranges on both sides *)
Definition nx_xo : Z -> proc := nx_x ex_cols0 ex_rows1.
Definition okb {A} (o : outcome A) : bool := match o with Ok _ => true | _ => false end.
Definition get_ok {A} (o : outcome A) (z : A) : A := match o with Ok y => y | _ => z end.
Lemma ok_get {A} (o : outcome A) (z : A) : okb o = true -> o = Ok (get_ok o z).
Proof. destruct o; intros H; try discriminate; reflexivity. Qed.
Definition nx_s0 : tnet := tnet_start (nx_code nx_xo) (fun p => pc_mem (nx_xo p)).
Definition nx_so : tnet := get_ok (nx_end true nx_xo nx_turn) nx_s0.
Definition nx_r0 : mlist * mem * list Z := (mkMl None None [], pc_mem (nx_xo 1), []).
Definition nx_ro : mlist * mem * list Z := get_ok (nx_fin true nx_xo nx_so 1) nx_r0.
Lemma nx_so_run : nx_end true nx_xo nx_turn = Ok nx_so.
Proof.
  assert (H : okb (nx_end true nx_xo nx_turn) = true) by (vm_compute; reflexivity).
  exact (ok_get (nx_end true nx_xo nx_turn) nx_s0 H).
Qed.
Lemma nx_ro_fin : nx_fin true nx_xo nx_so 1 = Ok nx_ro.
Proof.
  assert (H : okb (nx_fin true nx_xo nx_so 1) = true) by (vm_compute; reflexivity).
  exact (ok_get (nx_fin true nx_xo nx_so 1) nx_r0 H).
Qed.
Lemma nx_so_done : tdone 2 nx_so = true.
Proof. vm_compute. reflexivity. Qed.
Lemma nx_ro_eta : nx_ro = (fst (fst nx_ro), snd (fst nx_ro), snd nx_ro).
Proof. destruct nx_ro as [[? ?] ?]. reflexivity. Qed.
Definition nx_to : mlist := Eval vm_compute in fst (fst nx_ro).
Lemma nx_to_ok : fst (fst nx_ro) = nx_to.
Proof. vm_compute. reflexivity. Qed.
Lemma nx_do : nx_fin true nx_xo nx_so 1 = Ok (nx_to, snd (fst nx_ro), snd nx_ro).
Proof. rewrite <- nx_to_ok. exact (eq_trans nx_ro_fin (@f_equal _ (outcome (mlist * mem * list Z)) Ok _ _ nx_ro_eta)). Qed.
Lemma nx_end_eq gen x sched : trun tx_rd gen nx_bin (dc_space nx_d) (tnet_start (nx_code x) (fun p => pc_mem (x p))) sched = nx_end gen x sched.
Proof. reflexivity. Qed.
Lemma nx_fin_eq gen x s p : do_transition gen nx_d xini (fun _ _ _ => Ok (tq_mem (tn_proc s p))) (pc_addr (x p)) (pc_ops (x p)) (Some (pc_old (x p))) (pc_next (x p)) (pc_mem (x p)) = nx_fin gen x s p.
Proof. reflexivity. Qed.
Lemma nx_old_at : HoldsAt (exsp2 4 4) 4 ex_cols0 0 (pc_old (nx_xo 0)) (pc_mem (nx_xo 0)) 1 (mkIdx 2 0 0) [25; 0; 0; 0].
Proof.
  eexists. exists 1100. split; [vm_compute; reflexivity|]. split; [change (sp_dims (exsp2 4 4)) with 2%nat; repeat split; cbn [b_from b_to t_box i0 i1 i2]; lia|]. split; [|vm_compute; reflexivity].
  eexists. split; [vm_compute; reflexivity|]. cbv zeta. split; [|intros H; discriminate H].
  intros _. do 4 eexists. split; [vm_compute; reflexivity|]. cbn. lia.
Qed.
Lemma nx_new_at : HoldsAt (exsp2 4 4) 4 ex_rows1 1 nx_to (snd (fst nx_ro)) 0 (mkIdx 2 0 0) [4; 0; 0; 0].
Proof.
  eexists. exists 2008. split; [vm_compute; reflexivity|]. split; [change (sp_dims (exsp2 4 4)) with 2%nat; repeat split; cbn [b_from b_to t_box i0 i1 i2]; lia|]. split; [|vm_compute; reflexivity].
  eexists. split; [vm_compute; reflexivity|]. cbv zeta. split; [|intros H; discriminate H].
  intros _. do 4 eexists. split; [vm_compute; reflexivity|]. cbn. lia.
Qed.
Lemma nx_ready_o : forall p, 0 <= p < 2 -> ReadyNd nx_d ex_qb 2 ex_cols0 ex_rows1 p (nx_xo p).
Proof.
  apply nx_ready; auto using ex_cols0_frozen, ex_rows1_frozen.
  - apply noempty_check; [exact ex_cols0_frozen|reflexivity].
  - apply noempty_check; [exact ex_rows1_frozen|reflexivity].
  - apply nx_two; split; reflexivity.
  - apply nx_two; (split; apply fresh_ok; vm_compute; reflexivity).
  - apply nx_two; eexists; vm_compute; reflexivity.
Qed.
Lemma nx_start_o : forall p, 0 <= p < 2 -> exists u, tcp_start (tx_q p) nx_d 2 p (pc_addr (nx_xo p)) (pc_ops (nx_xo p)) (Some (pc_old (nx_xo p))) (pc_next (nx_xo p)) = Ok (u, nx_code nx_xo p).
Proof. apply nx_two; eexists; vm_compute; reflexivity. Qed.

(* The condition on pairs of processes is needed: messages have no tags, and the order in which
   they are sent (by old ranges) is not the order in which they are received (by new ranges). Here
   process 0 has two ranges of 2x4 elements before, and process 1 has two ranges of 4x2 elements
   afterwards. All other conditions hold, no process fails and all get done, but a value of
   process 1 is not the value of the owner: two of the four messages are interchanged. *)
Theorem C55_message_order_refuted : exists d N fl tl x code s t m' fr i v w,
  0 < dc_es d /\ dc_map0 d = None /\ GoodNd (dc_space d) N fl tl /\ NoEmpty fl /\ NoEmpty tl /\ Unique fl /\ OwnDisjoint fl /\ Unique tl /\ OwnDisjoint tl /\
  (exists n, HasCount (sp_dims (dc_space d)) (sp_box (dc_space d)) n /\ n < 2 ^ 31) /\
  (forall p, 0 <= p < N -> ReadyNd d ex_qb N fl tl p (x p)) /\ FitsNd (dc_space d) nx_bin (dc_es d) /\ (forall p, 0 <= p < N -> is_qsort (cmp2phase p) (tx_q p)) /\
  (forall p, 0 <= p < N -> exists u, tcp_start (tx_q p) d N p (pc_addr (x p)) (pc_ops (x p)) (Some (pc_old (x p))) (pc_next (x p)) = Ok (u, code p)) /\
  trun tx_rd true nx_bin (dc_space d) (tnet_start code (fun p => pc_mem (x p))) nx_turn = Ok s /\ tdone N s = true /\
  do_transition true d xini (fun _ _ _ => Ok (tq_mem (tn_proc s 1))) (pc_addr (x 1)) (pc_ops (x 1)) (Some (pc_old (x 1))) (pc_next (x 1)) (pc_mem (x 1)) = Ok (t, m', fr) /\
  HoldsAt (dc_space d) (dc_es d) fl 0 (pc_old (x 0)) (pc_mem (x 0)) 1 i v /\ HoldsAt (dc_space d) (dc_es d) tl 1 t m' 0 i w /\ v <> w.
Proof.
  assert (N1 : NoEmpty ex_cols0) by (apply noempty_check; [exact ex_cols0_frozen|reflexivity]). assert (N2 : NoEmpty ex_rows1) by (apply noempty_check; [exact ex_rows1_frozen|reflexivity]).
  exists nx_d, 2, ex_cols0, ex_rows1, nx_xo, (nx_code nx_xo), nx_so, nx_to, (snd (fst nx_ro)), (snd nx_ro), (mkIdx 2 0 0), [25; 0; 0; 0], [4; 0; 0; 0].
  split; [reflexivity|]. split; [reflexivity|]. split; [apply ex_goodnd; try reflexivity; [exact ex_cols0_frozen|exact ex_rows1_frozen]|]. split; [exact N1|]. split; [exact N2|].
  split; [apply unique_check; [exact ex_cols0_frozen|reflexivity]|]. split; [apply owndisjoint_check; [exact ex_cols0_frozen|reflexivity]|].
  split; [apply unique_check; [exact ex_rows1_frozen|reflexivity]|]. split; [apply owndisjoint_check; [exact ex_rows1_frozen|reflexivity]|].
  split; [exists 16; split; [exact nx_count|reflexivity]|].
  split; [exact nx_ready_o|].
  split; [intros a q; unfold nx_bin; destruct (a =? 0); [vm_compute; congruence|split; [vm_compute; congruence|reflexivity]]|].
  split; [intros p _; apply isort_2phase|].
  split; [exact nx_start_o|].
  split; [exact (eq_trans (nx_end_eq true nx_xo nx_turn) nx_so_run)|]. split; [exact nx_so_done|].
  split; [exact (eq_trans (nx_fin_eq true nx_xo nx_so 1) nx_do)|].
  split; [exact nx_old_at|]. split; [exact nx_new_at|discriminate].
Qed.

Print Assumptions C55_switch_nd.
Print Assumptions C55_case.
Print Assumptions C55_case_run.
Print Assumptions C55_message_order_refuted.
