(* Property C26: switching a 1d container to another partitioning, end to end *)
From Coq Require Import ZArith List Bool Lia ZifyBool ZifyNat Sorted Permutation.
From Verif Require Import Base ListFacts Model_Space Model_Mem Model_Type Model_RangeList Model_Layout Model_Partitioner Model_Group Model_Transition Model_Data Model_Action Model_ActionTrans Model_ActionExec Model_ActionExec2 Model_Net Model_Switch.
From Verif Require Import Spec_Space Spec_RangeList Spec_Partitioner Spec_Type Spec_Layout Spec_Data Spec_Transition Spec_Action Spec_ActionTrans Spec_Async Spec_Reduce Spec_Net Spec_Switch.
From Verif Require Import Proof_RangeList Proof_Partitioner2 Proof_RangeList4 Proof_RangeList5 Proof_Trans1 Proof_Trans2 Proof_Trans3 Proof_Trans4 Proof_Data Proof_Data3 Proof_Type Proof_Comb3 Proof_Group Proof_Net Proof_Reduce1 Proof_Reduce2 Proof_Reduce3 Proof_Reduce4 Proof_Switch1 Proof_Switch4 Proof_Switch8 Proof_Switch9 Proof_Switch10.
From Verif Require Import Prop_Partitioner Prop_Layout Prop_Transition Prop_Data Prop_Reduce.
Import ListNotations.
Open Scope Z_scope.

(* A group of N processes switches a 1d container from the ranges [fl] to the ranges [tl], with
   all values to be preserved or reduced with [red]. Each process has memory for its indexes
   before, and calculated its transition and its mappings on its own. Then, on each process, the
   first part of the switch (reuse of memory, allocation, plan of the messages) succeeds, and
   - every execution of the plans, however the processes are scheduled, can go on until all
     processes are done, with all messages received
   - the switch then ends on each process, with memory for all its new indexes, which do not
     overlap
   - for each new index of each process, it has the value which its only owner had before, or the
     reduction of the values which all its owners had before
   - nothing else was changed, but the temporary buffers. *)
Theorem C26_switch_partial : forall d qb N fl tl red T x gen ini,
  0 < dc_es d -> dc_map0 d = None -> Good1d (dc_space d) N fl tl -> c_qsort rb_cmp qb ->
  (forall p, 0 <= p < N -> Ready d qb N fl tl red p (x p)) ->
  (red <> RO_None -> Elementwise T (dc_es d) red) -> Reducible (dc_es d) fl tl ->
  exists t cx acts,
    (forall p, 0 <= p < N -> switch_start d N p (pc_addr (x p)) (pc_ops (x p)) (Some (pc_old (x p))) (pc_next (x p)) = Ok (t p, cx p, acts p)) /\
    forall place oth, (forall p, 0 <= p < N -> BuffersFor (acts p) (place p) (blocks (pc_old (x p)) ++ blocks (t p))) ->
    AlwaysEnds N (nstart (fun p => program (den2 (cx p) (place p) T (oth p)) (acts p)) (fun p => pc_mem (x p)))
      (fun p st => (forall q, 0 <= q < N -> p_in st (Peer q) = []) /\
        exists m' fr, do_transition gen d ini (fun _ _ _ => Ok (p_mem st)) (pc_addr (x p)) (pc_ops (x p)) (Some (pc_old (x p))) (pc_next (x p)) (pc_mem (x p))
            = Ok (t p, m', fr) /\
          GoodList (dc_space d) (dc_es d) (t p) /\ Covers tl p (t p) /\
          (forall i, Owns tl p i -> exists v, Holds (dc_es d) tl p (t p) m' i v /\ Expected (dc_es d) T red fl x i v) /\
          (forall a, (forall b, In b (blocks (t p)) -> ~ region (fst b) (snd b) a) ->
             (forall id size, Reserves (acts p) id size -> ~ region (place p id) size a) -> m' a = pc_mem (x p) a)).
Proof.
  intros d qb N fl tl red T x gen ini Hes Hm0 G Hq HX HT HR.
  destruct (choice_range (mkMl None None [], mkMl None None []) (fun p v => Alloc d tl p (pc_old (x p)) (pc_next (x p)) (pc_addr (x p)) (fst v) (snd v)) N) as (tF & HA).
  { intros p Hp. destruct (HX p Hp) as [X1 X2 X3 X4 X5 X6 X7].
    destruct (alloc_ok d Hes Hm0 N fl tl G p (pc_old (x p)) (pc_next (x p)) (pc_addr (x p)) X1 X3 X4 X5) as (t & F' & H). exists (t, F'). exact H. }
  set (t := fun p => fst (tF p)). set (F' := fun p => snd (tF p)). change (forall p, 0 <= p < N -> Alloc d tl p (pc_old (x p)) (pc_next (x p)) (pc_addr (x p)) (t p) (F' p)) in HA.
  clearbody t F'. clear tF.
  set (cx := fun p => trans_ctx d N p (pc_ops (x p)) (Some (F' p)) (t p)).
  destruct (choice_range [] (fun p a => exists s, plan (cx p) (pc_ops (x p)) = Ok s /\ as_acts s = a) N) as (acts & Hacts).
  { intros p Hp. destruct (ops_ok d N fl tl G red qb Hq x HX p Hp) as [HO _]. destruct (HX p Hp) as [X1 X2 X3 X4 X5 X6 X7].
    destruct (the_plan d Hes N fl tl G red _ (proj1 (g_sorted _ _ _ _ G qb Hq)) (proj2 (g_sorted _ _ _ _ G qb Hq)) p Hp (pc_old (x p)) (pc_next (x p)) (pc_addr (x p)) (pc_ops (x p)) X1 X2 HO (t p) (F' p) (HA p Hp) (fun _ => 0) T (fun _ => skip)) as (s & idf & u & E1 & _ & _).
    - intros k Hk Hr. destruct (lim d N fl tl G red qb Hq HR x HX k Hk Hr) as (L1 & L2 & _). auto.
    - intros k Hk Hr. apply (lim d N fl tl G red qb Hq HR x HX k Hk Hr).
    - exists (as_acts s), s. split; auto. }
  exists t, cx, acts. split.
  { intros p Hp. destruct (al_run _ _ _ _ _ _ _ _ (HA p Hp)) as (t1 & R1 & R2). destruct (Hacts p Hp) as (s & E1 & E2).
    unfold switch_start. rewrite R1. cbn [obind fst snd]. rewrite R2. cbn [obind]. change (trans_ctx d N p (pc_ops (x p)) (Some (F' p)) (t p)) with (cx p). rewrite E1. cbn [obind]. rewrite E2. reflexivity. }
  intros place oth Hbuf.
  destruct (choice_range (fun _ => 0, 0%nat) (fun p v => program (den2 (cx p) (place p) T (oth p)) (acts p) = repeat skip (snd v) ++ prog (rl_trs fl) (rl_trs tl) N p red (segs (qb (allb (rl_trs fl) (rl_trs tl)))) (cx p) (place p) T (fromS d fl p (pc_old (x p))) (toS d tl p (t p)) (fst v) /\
      Reserved (rl_trs fl) (rl_trs tl) N (segs (qb (allb (rl_trs fl) (rl_trs tl)))) (cx p) (acts p) (fst v)) N) as (iu & HI).
  { intros p Hp. destruct (run_plan d Hes N fl tl G red qb Hq T HR x HX t F' HA acts Hacts place oth p Hp) as (idf & u & E). exists (idf, u). exact E. }
  assert (S := run_stage d Hes N fl tl G red qb Hq T HT HR x HX t F' HA acts Hacts place oth Hbuf (fun p => fst (iu p)) (fun p Hp => proj2 (HI p Hp))).
  assert (S2 := stage_seq N _ _ _ _ _ (stage_skips N (fun p => snd (iu p)) (fun p mm => mm = pc_mem (x p))) S).
  assert (S3 := stage_ext N (fun p => program (den2 (cx p) (place p) T (oth p)) (acts p)) _ _ _ (fun p Hp => proj1 (HI p Hp)) S2).
  assert (R := stage_run N _ (fun p => pc_mem (x p)) _ _ S3 (fun p _ => eq_refl)).
  intros sched y Hs Hy. destruct (R sched y Hs Hy) as [R1 R2]. split; auto. intros HD p Hp. destruct (R2 HD p Hp) as [Q1 Q2]. split; auto.
  destruct (finish d Hes N fl tl G red qb Hq T HT HR x HX t F' HA acts Hacts place oth Hbuf (fun p => fst (iu p)) (fun p Hp => proj2 (HI p Hp)) gen ini p _ Hp Q1) as (m' & fr & E & A1 & A2).
  exists m', fr. split; [exact E|]. split; [apply (al_good _ _ _ _ _ _ _ _ (HA p Hp))|]. split; [apply (al_cov _ _ _ _ _ _ _ _ (HA p Hp))|]. split; auto.
Qed.

(* With a single owner before, the expected value is the one it had *)
Theorem C26_single_owner : forall es T red fl x i s v, OnlyOwner fl s i -> Expected es T red fl x i v ->
  Holds es fl s (pc_old (x s)) (pc_mem (x s)) i v.
Proof.
  intros es T red fl x i s v HO (ts & vs & ND & HI & HF & ->).
  assert (E : ts = [s]).
  { destruct ts as [|a ts]; [exfalso; apply (proj2 (HI s)), HO; auto|]. assert (a = s) by (apply HO, HI; left; auto). subst a.
    destruct ts as [|b ts]; auto. exfalso. inversion ND as [|? ? N1 N2]; subst. apply N1. left. apply HO, HI. right. left. auto. }
  subst ts. inversion HF as [|? w ? ? H1 H2]; subst. inversion H2; subst. exact H1.
Qed.

Lemma holds_fun es l me ml mm i v v' : sp_dims (rl_space l) = 1%nat -> OwnDisjoint l -> Holds es l me ml mm i v -> Holds es l me ml mm i v' -> v = v'.
Proof.
  intros Hd HO (n & y & m & A1 & A2 & A3 & A4 & ->) (n' & y' & m' & B1 & B2 & B3 & B4 & ->).
  assert (n = n') by (apply (HO me n n' y y' i); auto; rewrite Hd; auto). subst n'. rewrite A1 in B1. injection B1 as <-. rewrite A3 in B3. injection B3 as <-. reflexivity.
Qed.
Lemma forall2_perm {A B} (R : A -> B -> Prop) l l' : Permutation l l' -> forall v, Forall2 R l v -> exists v', Permutation v v' /\ Forall2 R l' v'.
Proof.
  induction 1 as [|a l l' P IH|a b l|l1 l2 l3 P1 IH1 P2 IH2]; intros v H.
  - inversion H; subst. exists []. auto.
  - inversion H as [|? w ? ws H1 H2]; subst. destruct (IH ws H2) as (v' & Q1 & Q2). exists (w :: v'). auto.
  - inversion H as [|? w ? ws H1 H2]; subst. inversion H2 as [|? w' ? ws' H3 H4]; subst. exists (w' :: w :: ws'). split; [apply perm_swap|auto].
  - destruct (IH1 v H) as (v1 & Q1 & Q2). destruct (IH2 v1 Q2) as (v2 & Q3 & Q4). exists v2. split; auto. eapply perm_trans; eauto.
Qed.
Lemma forall2_fun {A B} (R : A -> B -> Prop) (HF : forall a b b', R a b -> R a b' -> b = b') l : forall v v', Forall2 R l v -> Forall2 R l v' -> v = v'.
Proof.
  induction l as [|a l IH]; intros v v' H H'; inversion H; inversion H'; subst; auto. f_equal; eauto.
Qed.

(* With an associative and commutative operation, the expected value is unique: so all processes
   which own an index after the switch hold the same value for it *)
Theorem C26_determined : forall d N fl tl T red x i v v', 0 < dc_es d -> Good1d (dc_space d) N fl tl ->
  Elementwise T (dc_es d) red -> AssocComm T (dc_es d) red 1 ->
  Expected (dc_es d) T red fl x i v -> Expected (dc_es d) T red fl x i v' -> v = v'.
Proof.
  intros d N fl tl T red x i v v' Hes G HE HA (ts & vs & N1 & I1 & F1 & ->) (ts' & vs' & N2 & I2 & F2 & ->).
  assert (P : Permutation ts ts') by (apply NoDup_Permutation; auto; intros t; rewrite I1, I2; tauto).
  destruct (forall2_perm _ _ _ P vs F1) as (w & Q1 & Q2).
  assert (w = vs'). { eapply forall2_fun; [|exact Q2|exact F2]. intros a b b'. apply holds_fun; [rewrite (gd_flsp _ _ _ _ G); apply (gd_dims _ _ _ _ G)|apply (gd_fld _ _ _ _ G)]. }
  subst w. apply (reduce_perm T (dc_es d) red 1); auto; [apply (ew_size _ _ _ HE); lia|].
  clear - F1 Hes. induction F1 as [|t w ts vs H F IH]; constructor; auto.
  destruct H as (n & y & m & _ & _ & _ & _ & ->). assert (L := rdb_length (pc_mem (x t)) (m_base m + (i0 i - i0 (b_from (r_box (m_req m)))) * dc_es d) (dc_es d) ltac:(lia)). lia.
Qed.

(* The predefined types work on each element on its own *)
Theorem C26_integers : forall T o, IntType T -> it_op T o <> None -> TotalOp T o -> Elementwise (int_dt T) (Z.of_nat (it_size T)) o.
Proof. exact int_elementwise. Qed.
Theorem C26_floats : forall F o, FType F -> ft_op F o <> None -> Elementwise (float_dt F) (Z.of_nat (ft_size F)) o.
Proof. exact float_elementwise. Qed.

(* ---------- a case ---------- *)

(* 3 processes, 20 uint32: process 0 has [0,12), process 1 has [6,20), process 2 nothing. After the switch with
   a sum, they have [0,8), [8,14), [14,20). Process 0 and 1 reuse their memory. *)
Definition sw_d : dcont := mkDc 4 (exsp 20) None.
Definition sw_prep (l : rlist) (p : Z) : mlist := match prepare_maps sw_d l p with Ok t => t | _ => mkMl None None [] end.
Definition sw_a1 (k : Z) : Z := 1000.
Definition sw_a2 (k : Z) : Z := 2000.
Definition sw_old (p : Z) : mlist :=
  match (do r <- check_map_reuse 4 (sw_prep ex_two p) None; allocate_mappings 4 sw_a1 (fst r)) with Ok t => t | _ => mkMl None None [] end.
Definition sw_mem (p a : Z) : Z := if (a mod 4 =? 0) && (1000 <=? a) then (a - 1000) / 4 + (if p =? 1 then 106 else 0) else 0.
Definition sw_ops (p : Z) : tops :=
  match calc_transition ex_qb (exsp 20) (Some (ex_np 1 20 3 p ex_two)) (Some (ex_np 2 20 3 p ex_blk)) DF_Preserve RO_Sum with Ok (Some tr) => tr_ops tr | _ => tops_empty end.
Definition sw_x (p : Z) : proc := mkProc (sw_old p) (sw_prep ex_blk p) (sw_mem p) (ex_np 1 20 3 p ex_two) (ex_np 2 20 3 p ex_blk) (sw_ops p) sw_a2.

Lemma small_reducible es fl tl lo hi : FrozenList fl -> 0 < es -> rl_tids fl <= 8 -> sp_dims (rl_space fl) = 1%nat -> lo <= hi -> (hi - lo) * es * 8 < 2 ^ 32 ->
  forallb (fun x => (lo <=? i0 (b_from (t_box x))) && (i0 (b_to (t_box x)) <=? hi)) (rl_trs fl) = true -> Reducible es fl tl.
Proof.
  intros FL Hes H8 Hd Hlh Hsz HB a b ts Hab ND Hne HO. rewrite forallb_forall in HB.
  destruct (FrozenList_Frozen fl FL) as [FZ _].
  assert (K : forall t i, Owns fl t i -> 0 <= t < rl_tids fl /\ lo <= i0 i < hi).
  { intros t i (n & y & R & HI). apply (frozen_range_in _ _ _ _ FL) in R. destruct R as [R1 R2]. specialize (HB y R1). rewrite Hd in HI. destruct HI as [HI _].
    assert (T := proj1 (Forall_forall _ _) (fz_tasks _ FZ) y R1). cbv beta in T. lia. }
  assert (HL : (length ts <= 8)%nat).
  { assert (Hi : incl ts (zcount (rl_tids fl))).
    { intros t Ht. apply zcount_In. apply (K t (mkIdx a 0 0)). apply HO; auto. simpl. lia. }
    apply NoDup_incl_length in Hi; auto. unfold zcount in Hi. rewrite map_length, seq_length in Hi. lia. }
  split; [lia|]. split; [|intros _; exact HL].
  destruct ts as [|t ts]; [simpl; lia|].
  assert (K1 := K t (mkIdx a 0 0) (proj1 (HO (mkIdx a 0 0) t ltac:(simpl; lia)) (or_introl eq_refl))).
  assert (K2 := K t (mkIdx (b - 1) 0 0) (proj1 (HO (mkIdx (b - 1) 0 0) t ltac:(simpl; lia)) (or_introl eq_refl))). cbn [i0] in K1, K2.
  remember (Z.of_nat (length (t :: ts))) as len. assert (0 <= len <= 8) by lia.
  assert ((b - a) * es <= (hi - lo) * es) by nia. nia.
Qed.
Lemma sw_own l p : FrozenList l -> rl_space l = exsp 20 -> NoEmpty l -> 0 <= p < rl_tids l -> forallb (fun x => t_mapNo x =? 0) (rl_trs l) = true -> OwnRanges (exsp 20) l p.
Proof.
  intros FL Es NE Hp HB. rewrite forallb_forall in HB.
  assert (K : forall n x, rl_tidrange l p n = Ok (Some x) -> t_mapNo x = 0).
  { intros n y R. apply (frozen_range_in _ _ _ _ FL) in R. destruct R as [R1 R2]. specialize (HB y R1). lia. }
  split; auto.
  - intros n y R. rewrite <- Es. eapply NE; eauto.
  - intros y R. eauto.
  - intros n y z R1 R2. left. rewrite (K _ _ R1), (K _ _ R2). reflexivity.
  - exists 20. split; [exact xcount|vm_compute; reflexivity].
Qed.
Lemma sw_three (P : Z -> Prop) : P 0 -> P 1 -> P 2 -> forall p, 0 <= p < 3 -> P p.
Proof. intros A B C p Hp. assert (p = 0 \/ p = 1 \/ p = 2) as [->|[->| ->]] by lia; auto. Qed.
Lemma sw_ready : forall p, 0 <= p < 3 -> Ready sw_d ex_qb 3 ex_two ex_blk RO_Sum p (sw_x p).
Proof.
  assert (O1 : forall p, 0 <= p < 3 -> OwnRanges (exsp 20) ex_two p).
  { intros p Hp. apply sw_own; [exact ex_two_frozen|reflexivity|apply (gd_flne _ _ _ _ ex_good_tb)|exact Hp|reflexivity]. }
  assert (O2 : forall p, 0 <= p < 3 -> OwnRanges (exsp 20) ex_blk p).
  { intros p Hp. apply sw_own; [exact ex_blk_frozen|reflexivity|apply (gd_tlne _ _ _ _ ex_good_tb)|exact Hp|reflexivity]. }
  assert (K : forall p, 0 <= p < 3 -> GoodList (exsp 20) 4 (sw_old p) /\ Covers ex_two p (sw_old p)).
  { intros p Hp. destruct (C37_switch sw_d (mkDs None []) ex_two p (or_introl eq_refl) eq_refl eq_refl (Reached_new _) (O1 p Hp)) as (tl & P1 & P2 & P3).
    destruct (P3 sw_a1) as (t1 & f & t & S1 & S2 & S3 & S4 & _).
    - revert p Hp tl P1 P2 P3. apply (sw_three (fun p => forall tl, prepare_maps sw_d ex_two p = Ok tl -> _ -> _ -> FreshFor (dc_es sw_d) sw_a1 tl (ds_live (mkDs None [])))).
      all: intros tl E _ _; vm_compute in E; injection E as <-; apply fresh_ok; vm_compute; reflexivity.
    - unfold sw_old, sw_prep. rewrite P1. cbn [ds_act] in S1. change (dc_es sw_d) with 4 in S1, S2. rewrite S1. cbn [obind fst]. rewrite S2. split; auto. }
  intros p Hp. split; cbn [sw_x pc_old pc_next pc_mem pc_from pc_to pc_ops pc_addr].
  - apply K; auto.
  - apply K; auto.
  - apply O2; auto.
  - revert p Hp. apply sw_three; vm_compute; reflexivity.
  - revert p Hp. apply sw_three; apply fresh_ok; vm_compute; reflexivity.
  - apply ex_sees; auto.
  - revert p Hp. apply sw_three; eexists; (split; [vm_compute; reflexivity|vm_compute; reflexivity]).
Qed.
Example C26_case : 0 < dc_es sw_d /\ dc_map0 sw_d = None /\ Good1d (dc_space sw_d) 3 ex_two ex_blk /\ c_qsort rb_cmp ex_qb /\
  (forall p, 0 <= p < 3 -> Ready sw_d ex_qb 3 ex_two ex_blk RO_Sum p (sw_x p)) /\
  Elementwise (int_dt T_uint32) (dc_es sw_d) RO_Sum /\ Reducible (dc_es sw_d) ex_two ex_blk.
Proof.
  split; [reflexivity|]. split; [reflexivity|]. split; [exact ex_good_tb|]. split; [exact ex_qb_ok|]. split; [exact sw_ready|]. split.
  - apply (C26_integers T_uint32 RO_Sum); [unfold IntType; simpl; tauto|discriminate|]. left. intros [H|H]; discriminate.
  - apply (small_reducible 4 ex_two ex_blk 0 20); try reflexivity; try lia; [exact ex_two_frozen|vm_compute; congruence].
Qed.
(* one execution: index 6 (6 and 106 before) is 112 on process 0, 11 is 11 + 111 on process 1, and 19 is 119 on process 2 *)
Definition sw_go (p : Z) : list action * actx := match switch_start sw_d 3 p sw_a2 (sw_ops p) (Some (sw_old p)) (sw_prep ex_blk p) with Ok (_, cx, a) => (a, cx) | _ => ([], mkCtx 4 1 3 p [] None None) end.
Definition sw_place (p id : Z) : Z := 5000.
Definition sw_end : option net := nrun ([0; 1; 1] ++ repeat 0 3 ++ repeat 1 3 ++ [2])
  (nstart (fun p => program (den2 (snd (sw_go p)) (sw_place p) (int_dt T_uint32) (fun _ => skip)) (fst (sw_go p))) sw_mem).
Definition sw_final (p : Z) : option (list (Z * Z) * list (list Z)) :=
  match sw_end with
  | None => None
  | Some y =>
    match do_transition false sw_d xini (fun _ _ _ => Ok (p_mem (pr_st (y p)))) sw_a2 (sw_ops p) (Some (sw_old p)) (sw_prep ex_blk p) (sw_mem p), pr_code (y p) with
    | Ok (t, m, _), [] => Some (blocks t, flat_map (fun k => map (fun i => mread m (m_base k + 4 * Z.of_nat i) 1) (seq 0 (Z.to_nat (m_count k)))) (ml_maps t))
    | _, _ => None
    end
  end.
Definition sw_new (p : Z) : mlist := match switch_start sw_d 3 p sw_a2 (sw_ops p) (Some (sw_old p)) (sw_prep ex_blk p) with Ok (t, _, _) => t | _ => mkMl None None [] end.
Example C26_case_buffers : forall p, 0 <= p < 3 -> BuffersFor (fst (sw_go p)) (sw_place p) (blocks (sw_old p) ++ blocks (sw_new p)).
Proof.
  assert (B1 : forall p, 0 <= p < 3 -> forallb (fun a => match a_par a with BufReserve size id _ => (id =? 100) && (0 <=? size) && (size <=? 16) | _ => true end) (fst (sw_go p)) = true).
  { apply sw_three; vm_compute; reflexivity. }
  assert (B2 : forall p, 0 <= p < 3 -> forallb (fun b => fst b + snd b <=? 5000) (blocks (sw_old p) ++ blocks (sw_new p)) = true).
  { apply sw_three; vm_compute; reflexivity. }
  assert (K : forall p, 0 <= p < 3 -> forall id size, Reserves (fst (sw_go p)) id size -> id = 100 /\ 0 <= size <= 16).
  { intros p Hp id size (r & off & H). assert (E := proj1 (forallb_forall _ _) (B1 p Hp) _ H). cbn [a_par] in E. lia. }
  assert (K2 : forall p, 0 <= p < 3 -> forall b, In b (blocks (sw_old p) ++ blocks (sw_new p)) -> fst b + snd b <= 5000).
  { intros p Hp b H. assert (E := proj1 (forallb_forall _ _) (B2 p Hp) _ H). cbv beta in E. lia. }
  intros p Hp. split.
  - intros id size b HR Hb. apply (K p Hp) in HR. apply (K2 p Hp) in Hb. unfold AwayB, Away, sw_place. cbn [fst snd]. lia.
  - intros id size id' size' HR HR' Hne. apply (K p Hp) in HR. apply (K p Hp) in HR'. lia.
Qed.
Example C26_case_run : sw_final 0 = Some ([(1000, 48)], [[0]; [1]; [2]; [3]; [4]; [5]; [112]; [114]]) /\
  sw_final 1 = Some ([(1000, 56)], [[116]; [118]; [120]; [122]; [112]; [113]]) /\
  sw_final 2 = Some ([(2000, 24)], [[114]; [115]; [116]; [117]; [118]; [119]]).
Proof. vmsplit. Qed.

Print Assumptions C26_switch_partial.
Print Assumptions C26_single_owner.
Print Assumptions C26_determined.
Print Assumptions C26_integers.
Print Assumptions C26_floats.
Print Assumptions C26_case.
Print Assumptions C26_case_buffers.
Print Assumptions C26_case_run.
