(* Properties C21 - C25 and C49: transitions *)
From Coq Require Import ZArith List Bool Lia Permutation Sorted ZifyBool ZifyNat.
From Verif Require Import Base ListFacts Model_Space Spec_Space Proof_Space Model_RangeList Spec_RangeList Proof_RangeList Proof_RangeList4 Proof_RangeList5
  Model_Partitioner Spec_Partitioner Proof_Partitioner Proof_Partitioner2 Proof_Partitioner3 Prop_Partitioner Model_Group Proof_Group Proof_Migrate Proof_Group3 Model_Transition Spec_Transition
  Proof_Trans1 Proof_Trans2 Proof_Trans3 Proof_Trans4 Proof_Trans5 Proof_Trans6 Proof_Trans7 Proof_Trans8.
Import ListNotations.
Open Scope Z_scope.

(* ---------- example partitionings ---------- *)

Definition ex_run (n tasks : Z) (cs : list acall) : rlist :=
  match run_partitioner exq (fixed cs false) (mkParams (exsp n) (exgroup tasks 0) None) None with Ok l => l | _ => rl_new (exsp 0) 0 end.
Definition ex_np (name n tasks me : Z) (l : rlist) : npart := mkNp name (mkPartg (exsp n) (exgroup tasks me) [(RIfull, l)]).
Lemma ex_run_frozen n tasks cs l : 0 <= tasks -> run_partitioner exq (fixed cs false) (mkParams (exsp n) (exgroup tasks 0) None) None = Ok l -> FrozenList l.
Proof. intros H R. refine (run_frozen _ _ _ _ _ exq_good _ _ R); [left; reflexivity|exact H]. Qed.

(* three blocks; halos around them; two overlapping ranges; all *)
Definition ex_blk : rlist := Eval vm_compute in ex_run 20 3 [ACrange 0 (exrng 20 0 8) 0; ACrange 1 (exrng 20 8 14) 0; ACrange 2 (exrng 20 14 20) 0].
Definition ex_hal : rlist := Eval vm_compute in ex_run 20 3 [ACrange 2 (exrng 20 12 20) 0; ACrange 0 (exrng 20 0 10) 0; ACrange 1 (exrng 20 6 16) 0].
Definition ex_two : rlist := Eval vm_compute in ex_run 20 3 [ACrange 0 (exrng 20 0 12) 0; ACrange 1 (exrng 20 6 20) 0].
Lemma ex_blk_frozen : FrozenList ex_blk.
Proof. apply (ex_run_frozen 20 3 [ACrange 0 (exrng 20 0 8) 0; ACrange 1 (exrng 20 8 14) 0; ACrange 2 (exrng 20 14 20) 0]); [lia|vm_compute; reflexivity]. Qed.
Lemma ex_hal_frozen : FrozenList ex_hal.
Proof. apply (ex_run_frozen 20 3 [ACrange 2 (exrng 20 12 20) 0; ACrange 0 (exrng 20 0 10) 0; ACrange 1 (exrng 20 6 16) 0]); [lia|vm_compute; reflexivity]. Qed.
Lemma ex_two_frozen : FrozenList ex_two.
Proof. apply (ex_run_frozen 20 3 [ACrange 0 (exrng 20 0 12) 0; ACrange 1 (exrng 20 6 20) 0]); [lia|vm_compute; reflexivity]. Qed.

Lemma ex_good1d n tasks fl tl : FrozenList fl -> FrozenList tl -> n < 2 ^ 31 -> tasks <= 65536 ->
  rl_space fl = exsp n -> rl_space tl = exsp n -> rl_tids fl = tasks -> rl_tids tl = tasks ->
  forallb (fun l => forallb (fun x => negb (box_isEmpty (sp_dims (rl_space l)) (t_box x))) (rl_trs l) &&
    forallb (fun t => pairs_disj (sp_dims (rl_space l)) (mine t (rl_trs l))) (zcount (rl_tids l))) [fl; tl] = true ->
  Good1d (exsp n) tasks fl tl.
Proof.
  intros F1 F2 Hn Ht S1 S2 T1 T2 H. simpl in H. rewrite andb_true_r in H. apply andb_true_iff in H. destruct H as [A B].
  apply andb_true_iff in A. apply andb_true_iff in B. destruct A as [A1 A2]. destruct B as [B1 B2].
  constructor; auto; try (apply noempty_check; auto; fail); try (apply owndisjoint_check; auto; fail). simpl. lia.
Qed.
Lemma ex_good_bh : Good1d (exsp 20) 3 ex_blk ex_hal.
Proof. apply ex_good1d; try reflexivity; try lia; [exact ex_blk_frozen|exact ex_hal_frozen]. Qed.
Lemma ex_good_tb : Good1d (exsp 20) 3 ex_two ex_blk.
Proof. apply ex_good1d; try reflexivity; try lia; [exact ex_two_frozen|exact ex_blk_frozen]. Qed.
Lemma ex_sees me fl tl : 0 <= me < 3 -> Sees (exsp 20) 3 me fl tl (ex_np 1 20 3 me fl) (ex_np 2 20 3 me tl).
Proof. intros H. constructor; simpl; auto. Qed.
Definition ex_qb := isort rb_cmp.
Lemma ex_qb_ok : c_qsort rb_cmp ex_qb.
Proof. apply isort_c_qsort. Qed.

(* ---------- C21: every needed value is moved ---------- *)

(* The calculation succeeds exactly if every index can be handled. Then for every index the
   operations are: a local copy iff the process is the only owner before and an owner
   afterwards; a send to every other owner afterwards iff it is the only owner before; a
   receive from the only owner before; one reduction if there is not exactly one owner. *)
Theorem C21_transition : forall qb sp gsize me fl tl f t red,
  Good1d sp gsize fl tl -> Sees sp gsize me fl tl f t -> c_qsort rb_cmp qb ->
  (exists o, calc_transition qb sp (Some f) (Some t) DF_Preserve red = Ok (Some (mkTrans sp (pa_group (np_p f)) DF_Preserve red o)) /\
    (forall i, Handled me red fl tl i) /\ (forall i, TransAt gsize me red fl tl o i) /\ MapsOk me fl tl o /\ tp_init o = []) \/
  (calc_transition qb sp (Some f) (Some t) DF_Preserve red = Abort /\ ~ forall i, Handled me red fl tl i).
Proof.
  intros qb sp gsize me fl tl f t red G S Q. destruct (trans_main qb sp gsize me fl tl f t red G S Q) as [[o [O1 [O2 O3]]]|H]; [left|right; exact H].
  destruct (g_sorted _ _ _ _ G qb Q) as [X1 X2]. exists o. split; auto. split; auto. split; [|split].
  - exact (trans_at _ _ _ _ G _ X1 X2 me red (se_in _ _ _ _ _ _ _ S) o O3).
  - exact (maps_ok _ _ _ _ G _ X1 X2 me red o O3).
  - apply (oi_init _ _ _ _ _ _ _ O3).
Qed.

(* Every index owned afterwards is delivered exactly once and nothing else is written *)
Theorem C21_delivered_once : forall qb sp gsize me fl tl f t red o,
  Good1d sp gsize fl tl -> Sees sp gsize me fl tl f t -> c_qsort rb_cmp qb ->
  calc_transition qb sp (Some f) (Some t) DF_Preserve red = Ok (Some (mkTrans sp (pa_group (np_p f)) DF_Preserve red o)) ->
  forall i,
    (* written by a copy, a receive, or a reduction with the process in the output group *)
    let written := (nlocal o i + length (filter (fun x => inb i (rc_box x)) (tp_recv o)) +
      length (filter (fun x => inb i (rd_box x) && has_member me (members gsize o (rd_out x))) (tp_red o)))%nat in
    (Owns tl me i -> written = 1%nat) /\ (~ Owns tl me i -> written = 0%nat).
Proof.
  intros qb sp gsize me fl tl f t red o G S Q R i.
  destruct (trans_main qb sp gsize me fl tl f t red G S Q) as [[o' [O1 [O2 O3]]]|[O1 _]]; [|rewrite O1 in R; discriminate].
  rewrite O1 in R. injection R as ->. destruct (g_sorted _ _ _ _ G qb Q) as [X1 X2].
  apply (delivered_once sp gsize me fl tl red o i G). exact (trans_at _ _ _ _ G _ X1 X2 me red (se_in _ _ _ _ _ _ _ S) o O3 i).
Qed.

Example C21_case : exists o,
  Good1d (exsp 20) 3 ex_blk ex_hal /\ Sees (exsp 20) 3 1 ex_blk ex_hal (ex_np 1 20 3 1 ex_blk) (ex_np 2 20 3 1 ex_hal) /\ c_qsort rb_cmp ex_qb /\
  calc_transition ex_qb (exsp 20) (Some (ex_np 1 20 3 1 ex_blk)) (Some (ex_np 2 20 3 1 ex_hal)) DF_Preserve RO_None =
    Ok (Some (mkTrans (exsp 20) (exgroup 3 1) DF_Preserve RO_None o)) /\
  map (fun x => (i0 (b_from (lo_box x)), i0 (b_to (lo_box x)))) (tp_local o) = [(8, 10); (10, 12); (12, 14)] /\
  map (fun x => (i0 (b_from (sd_box x)), i0 (b_to (sd_box x)), sd_to x)) (tp_send o) = [(8, 10, 0); (12, 14, 2)] /\
  map (fun x => (i0 (b_from (rc_box x)), i0 (b_to (rc_box x)), rc_from x)) (tp_recv o) = [(6, 8, 0); (14, 16, 2)] /\
  tp_red o = [].
Proof.
  eexists. split; [exact ex_good_bh|]. split; [apply ex_sees; lia|]. split; [exact ex_qb_ok|]. vmsplit.
Qed.
(* the other outcome: two owners and no reduction *)
Example C21_case2 : Good1d (exsp 20) 3 ex_two ex_blk /\ Sees (exsp 20) 3 0 ex_two ex_blk (ex_np 1 20 3 0 ex_two) (ex_np 2 20 3 0 ex_blk) /\
  calc_transition ex_qb (exsp 20) (Some (ex_np 1 20 3 0 ex_two)) (Some (ex_np 2 20 3 0 ex_blk)) DF_Preserve RO_None = Abort.
Proof. split; [exact ex_good_tb|]. split; [apply ex_sees; lia|]. vm_compute. reflexivity. Qed.

(* Findings. The borders are compared by the int64_t difference returned as int: in a space
   of 3*10^9 indexes the end of the only range is sorted before its start, whatever the
   sorting algorithm, and the calculation aborts. *)
Definition ex_big : Z := 3000000000.
Definition ex_bigl : rlist := Eval vm_compute in ex_run ex_big 1 [ACrange 0 (exrng ex_big 0 ex_big) 0].
Lemma ex_bigl_frozen : FrozenList ex_bigl.
Proof. apply (ex_run_frozen ex_big 1 [ACrange 0 (exrng ex_big 0 ex_big) 0]); [lia|vm_compute; reflexivity]. Qed.
Theorem C21_wide_space_refuted : exists sp l f t, FrozenList l /\ rl_space l = sp /\ NoEmpty l /\ OwnDisjoint l /\ Sees sp 1 0 l l f t /\
  (forall i, Handled 0 RO_None l l i) /\
  forall qb red, c_qsort rb_cmp qb -> calc_transition qb sp (Some f) (Some t) DF_Preserve red = Abort.
Proof.
  exists (exsp ex_big), ex_bigl, (ex_np 1 ex_big 1 0 ex_bigl), (ex_np 2 ex_big 1 0 ex_bigl).
  split; [exact ex_bigl_frozen|]. split; [reflexivity|]. split; [apply noempty_check; [exact ex_bigl_frozen|reflexivity]|].
  split; [apply owndisjoint_check; [exact ex_bigl_frozen|reflexivity]|]. split; [constructor; simpl; auto; lia|]. split.
  - intros i Ho. assert (O : OnlyOwner ex_bigl 0 i).
    { assert (Q : forall t, Owns ex_bigl t i -> t = 0).
      { intros t H. apply owns_iff_trs in H; [|exact ex_bigl_frozen]. simpl in H. destruct H as [x [[<-|[]] [<- _]]]. reflexivity. }
      intros t. split; [apply Q|]. intros ->. destruct Ho; auto. }
    split; [intros _ n H; discriminate|]. intros H. exfalso. exact (H 0 O).
  - intros qb red Q.
    set (bl := borders_of true 0 (-1) (-1) (rl_trs ex_bigl) ++ borders_of false 0 (-1) (-1) (rl_trs ex_bigl)).
    destruct (Q bl) as [P S].
    assert (C : ConsistentOn rb_cmp bl).
    { split.
      - assert (K : forallb (fun a => forallb (fun b => Z.sgn (rb_cmp a b) =? - Z.sgn (rb_cmp b a)) bl) bl = true) by (vm_compute; reflexivity).
        intros a b Ha Hb. rewrite forallb_forall in K. specialize (K a Ha). rewrite forallb_forall in K. specialize (K b Hb). lia.
      - assert (K : forallb (fun a => forallb (fun b => forallb (fun c => (0 <? rb_cmp a b) || (0 <? rb_cmp b c) || (rb_cmp a c <=? 0)) bl) bl) bl = true) by (vm_compute; reflexivity).
        intros a b c Ha Hb Hc H1 H2. rewrite forallb_forall in K. specialize (K a Ha). rewrite forallb_forall in K. specialize (K b Hb).
        rewrite forallb_forall in K. specialize (K c Hc). lia. }
    specialize (S C). unfold calc_transition, do_calc_transition, trans_group.
    change (pa_group (np_p (ex_np 1 ex_big 1 0 ex_bigl))) with (exgroup 1 0). change (pa_group (np_p (ex_np 2 ex_big 1 0 ex_bigl))) with (exgroup 1 0).
    rewrite Z.eqb_refl. change (space_eq (pa_space (np_p (ex_np 1 ex_big 1 0 ex_bigl))) (exsp ex_big)) with true.
    change (space_eq (pa_space (np_p (ex_np 2 ex_big 1 0 ex_bigl))) (exsp ex_big)) with true. cbn [cassert obind].
    change (g_myid (exgroup 1 0) =? -1) with false. cbv iota. change (Nat.eqb (sp_dims (exsp ex_big)) 1) with true. cbv iota.
    change (find_inter (np_name (ex_np 2 ex_big 1 0 ex_bigl)) (pa_lists (np_p (ex_np 1 ex_big 1 0 ex_bigl)))) with (Some ex_bigl).
    change (find_inter (np_name (ex_np 1 ex_big 1 0 ex_bigl)) (pa_lists (np_p (ex_np 2 ex_big 1 0 ex_bigl)))) with (Some ex_bigl). cbv iota.
    unfold calcAddReductions. fold bl.
    destruct (qb bl) as [|x r] eqn:Er; [apply Permutation_sym, Permutation_nil in P; discriminate|].
    assert (Hx : In x bl) by (eapply Permutation_in; [symmetry; exact P|left; auto]).
    inversion S as [|? ? S1 S2]; subst. rewrite Forall_forall in S2.
    assert (NS : bd_isStart x = false).
    { destruct (bd_isStart x) eqn:E; auto. exfalso.
      set (e := mkBd ex_big 0 0 0 false true). assert (He : In e bl) by (vm_compute; auto).
      apply (Permutation_in _ P) in He. destruct He as [He|He]; [rewrite He in E; discriminate|]. specialize (S2 e He).
      assert (K : forallb (fun a => negb (bd_isStart a) || (0 <? rb_cmp a e)) bl = true) by (vm_compute; reflexivity).
      rewrite forallb_forall in K. specialize (K x Hx). rewrite E in K. simpl in K. lia. }
    change bl with (mkBd 0 0 0 0 true true :: mkBd ex_big 0 0 0 false true :: mkBd 0 0 0 0 true false :: mkBd ex_big 0 0 0 false false :: nil) in Hx |- *.
    destruct Hx as [<-|[<-|[<-|[<-|[]]]]]; try discriminate; reflexivity.
Qed.

(* A process owning an index twice, or an empty range, aborts the calculation *)
Definition ex_ovl : rlist := Eval vm_compute in ex_run 20 1 [ACrange 0 (exrng 20 0 12) 0; ACrange 0 (exrng 20 8 20) 0].
Definition ex_emp : rlist := Eval vm_compute in ex_run 20 1 [ACrange 0 (exrng 20 0 20) 0; ACrange 0 (exrng 20 20 20) 0].
Lemma ex_ovl_frozen : FrozenList ex_ovl.
Proof. apply (ex_run_frozen 20 1 [ACrange 0 (exrng 20 0 12) 0; ACrange 0 (exrng 20 8 20) 0]); [lia|vm_compute; reflexivity]. Qed.
Lemma ex_emp_frozen : FrozenList ex_emp.
Proof. apply (ex_run_frozen 20 1 [ACrange 0 (exrng 20 0 20) 0; ACrange 0 (exrng 20 20 20) 0]); [lia|vm_compute; reflexivity]. Qed.
Theorem C21_overlap_refuted : exists sp l f t qb, FrozenList l /\ rl_space l = sp /\ NoEmpty l /\ Sees sp 1 0 l l f t /\ c_qsort rb_cmp qb /\
  calc_transition qb sp (Some f) (Some t) DF_Preserve RO_Sum = Abort.
Proof.
  exists (exsp 20), ex_ovl, (ex_np 1 20 1 0 ex_ovl), (ex_np 2 20 1 0 ex_ovl), ex_qb.
  split; [exact ex_ovl_frozen|]. split; [reflexivity|]. split; [apply noempty_check; [exact ex_ovl_frozen|reflexivity]|].
  split; [constructor; simpl; auto; lia|]. split; [exact ex_qb_ok|]. vm_compute. reflexivity.
Qed.
Theorem C21_empty_range_refuted : exists sp l f t qb, FrozenList l /\ rl_space l = sp /\ OwnDisjoint l /\ Sees sp 1 0 l l f t /\ c_qsort rb_cmp qb /\
  calc_transition qb sp (Some f) (Some t) DF_Preserve RO_Sum = Abort.
Proof.
  exists (exsp 20), ex_emp, (ex_np 1 20 1 0 ex_emp), (ex_np 2 20 1 0 ex_emp), ex_qb.
  split; [exact ex_emp_frozen|]. split; [reflexivity|]. split.
  - intros t n m x y i Hn Hm Hx Hy. destruct (FrozenList_Frozen _ ex_emp_frozen) as [Fr _].
    assert (NE : forall k z, rl_tidrange ex_emp t k = Ok (Some z) -> InBox 1 i (t_box z) -> t = 0 /\ k = 0).
    { intros k z Hk Hz. destruct (frozen_range_in _ _ _ _ ex_emp_frozen Hk) as [J1 J2]. simpl in J1.
      assert (E0 : t = 0) by (destruct J1 as [<-|[<-|[]]]; simpl in J2; lia). clear J1 J2. split; auto. rewrite E0 in Hk.
      rewrite (frozen_tidrange _ Fr) in Hk by (simpl; lia). destruct (k <? 0) eqn:E; [discriminate|]. injection Hk as Hk. change (mine 0 (rl_trs ex_emp)) with (rl_trs ex_emp) in Hk.
      destruct (Z.to_nat k) as [|[|k']] eqn:Ek; [lia| |exfalso; destruct k'; discriminate Hk]. injection Hk as <-. unfold InBox in Hz. simpl in Hz. lia. }
    destruct (NE n x Hn Hx). destruct (NE m y Hm Hy). congruence.
  - split; [constructor; simpl; auto; lia|]. split; [exact ex_qb_ok|]. vm_compute. reflexivity.
Qed.

(* ---------- C22: sends and receives match ---------- *)

(* [p] and [q] calculate the transition independently, with their own qsort *)
Theorem C22_messages_match : forall qb qb' sp gsize p q fl tl f t f' t' red red' op oq,
  Good1d sp gsize fl tl -> Sees sp gsize p fl tl f t -> Sees sp gsize q fl tl f' t' -> c_qsort rb_cmp qb -> c_qsort rb_cmp qb' ->
  calc_transition qb sp (Some f) (Some t) DF_Preserve red = Ok (Some (mkTrans sp (pa_group (np_p f)) DF_Preserve red op)) ->
  calc_transition qb' sp (Some f') (Some t') DF_Preserve red' = Ok (Some (mkTrans sp (pa_group (np_p f')) DF_Preserve red' oq)) ->
  sent_to op q = expected_from oq p.
Proof.
  intros qb qb' sp gsize p q fl tl f t f' t' red red' op oq G S S' Q Q' R R'.
  destruct (trans_main qb sp gsize p fl tl f t red G S Q) as [[o [O1 [_ O3]]]|[O1 _]]; [|rewrite O1 in R; discriminate].
  destruct (trans_main qb' sp gsize q fl tl f' t' red' G S' Q') as [[o' [P1 [_ P3]]]|[P1 _]]; [|rewrite P1 in R'; discriminate].
  rewrite O1 in R. injection R as ->. rewrite P1 in R'. injection R' as ->.
  destruct (g_sorted _ _ _ _ G qb Q) as [X1 X2]. destruct (g_sorted _ _ _ _ G qb' Q') as [Y1 Y2].
  rewrite (segs_unique fl tl _ _ Y1 Y2 X1 X2) in P3. exact (send_recv _ _ _ _ _ _ _ _ _ _ O3 P3).
Qed.
Example C22_case : exists op oq,
  calc_transition ex_qb (exsp 20) (Some (ex_np 1 20 3 1 ex_blk)) (Some (ex_np 2 20 3 1 ex_hal)) DF_Preserve RO_None =
    Ok (Some (mkTrans (exsp 20) (exgroup 3 1) DF_Preserve RO_None op)) /\
  calc_transition ex_qb (exsp 20) (Some (ex_np 1 20 3 2 ex_blk)) (Some (ex_np 2 20 3 2 ex_hal)) DF_Preserve RO_None =
    Ok (Some (mkTrans (exsp 20) (exgroup 3 2) DF_Preserve RO_None oq)) /\
  sent_to op 2 = [mkBox (mkIdx 12 0 0) (mkIdx 14 0 0)] /\ expected_from oq 1 = [mkBox (mkIdx 12 0 0) (mkIdx 14 0 0)].
Proof. do 2 eexists. vmsplit. Qed.

(* ---------- C23: reductions agree ---------- *)

(* The reductions of [p] in which [q] takes part are those of [q] in which [p] takes part: same
   ranges, operation, input and output processes, in the same order. (What the groups are is
   said by C21_transition.) *)
Theorem C23_reductions_agree : forall qb qb' sp gsize p q fl tl f t f' t' red op oq,
  Good1d sp gsize fl tl -> Sees sp gsize p fl tl f t -> Sees sp gsize q fl tl f' t' -> c_qsort rb_cmp qb -> c_qsort rb_cmp qb' ->
  calc_transition qb sp (Some f) (Some t) DF_Preserve red = Ok (Some (mkTrans sp (pa_group (np_p f)) DF_Preserve red op)) ->
  calc_transition qb' sp (Some f') (Some t') DF_Preserve red = Ok (Some (mkTrans sp (pa_group (np_p f')) DF_Preserve red oq)) ->
  with_member q (reductions gsize op) = with_member p (reductions gsize oq).
Proof.
  intros qb qb' sp gsize p q fl tl f t f' t' red op oq G S S' Q Q' R R'.
  destruct (trans_main qb sp gsize p fl tl f t red G S Q) as [[o [O1 [_ O3]]]|[O1 _]]; [|rewrite O1 in R; discriminate].
  destruct (trans_main qb' sp gsize q fl tl f' t' red G S' Q') as [[o' [P1 [_ P3]]]|[P1 _]]; [|rewrite P1 in R'; discriminate].
  rewrite O1 in R. injection R as ->. rewrite P1 in R'. injection R' as ->.
  destruct (g_sorted _ _ _ _ G qb Q) as [X1 X2]. destruct (g_sorted _ _ _ _ G qb' Q') as [Y1 Y2].
  rewrite (segs_unique fl tl _ _ Y1 Y2 X1 X2) in P3. exact (red_agree _ _ _ _ _ _ _ _ _ O3 P3).
Qed.
(* for every index with not exactly one owner before, the groups are the owners before and after *)
Theorem C23_groups : forall qb sp gsize me fl tl f t red o,
  Good1d sp gsize fl tl -> Sees sp gsize me fl tl f t -> c_qsort rb_cmp qb ->
  calc_transition qb sp (Some f) (Some t) DF_Preserve red = Ok (Some (mkTrans sp (pa_group (np_p f)) DF_Preserve red o)) ->
  forall i, (forall s, ~ OnlyOwner fl s i) -> Owns fl me i \/ Owns tl me i ->
  exists x, In x (tp_red o) /\ inb i (rd_box x) = true /\ rd_redOp x = red /\
    IsOwners fl i (members gsize o (rd_in x)) /\ IsOwners tl i (members gsize o (rd_out x)).
Proof.
  intros qb sp gsize me fl tl f t red o G S Q R i H1 H2.
  destruct (C21_transition qb sp gsize me fl tl f t red G S Q) as [[o' [O1 [_ [O3 _]]]]|[O1 _]]; [|rewrite O1 in R; discriminate].
  rewrite O1 in R. injection R as ->. destruct (O3 i) as [_ _ _ [D1 _] DG].
  assert (N : nred o i = 1%nat) by auto. unfold nred in N. destruct (filter (fun x => inb i (rd_box x)) (tp_red o)) as [|x r] eqn:E; [discriminate|].
  assert (Hx : In x (filter (fun x => inb i (rd_box x)) (tp_red o))) by (rewrite E; left; auto). apply filter_In in Hx. destruct Hx as [Hx1 Hx2].
  exists x. destruct (DG x Hx1 Hx2) as [K1 [K2 K3]]. auto.
Qed.
(* the query functions for groups *)
Theorem C23_group_queries : forall tr k ts, 0 <= g_size (tr_group tr) -> members (g_size (tr_group tr)) (tr_ops tr) k = Some ts ->
  trans_groupCount tr k = Ok (Z.of_nat (length ts)) /\
  (forall i, 0 <= i < Z.of_nat (length ts) -> exists t, trans_taskInGroup tr k i = Ok t /\ nth_error ts (Z.to_nat i) = Some t) /\
  (forall t, 0 <= t < g_size (tr_group tr) -> exists b, trans_isInGroup tr k t = Ok b /\ (b = true <-> In t ts)).
Proof. intros tr k ts H M. exact (group_queries _ _ k ts tr eq_refl eq_refl H M). Qed.
Example C23_case : exists op oq,
  Good1d (exsp 20) 3 ex_two ex_blk /\
  calc_transition ex_qb (exsp 20) (Some (ex_np 1 20 3 0 ex_two)) (Some (ex_np 2 20 3 0 ex_blk)) DF_Preserve RO_Sum =
    Ok (Some (mkTrans (exsp 20) (exgroup 3 0) DF_Preserve RO_Sum op)) /\
  calc_transition ex_qb (exsp 20) (Some (ex_np 1 20 3 1 ex_two)) (Some (ex_np 2 20 3 1 ex_blk)) DF_Preserve RO_Sum =
    Ok (Some (mkTrans (exsp 20) (exgroup 3 1) DF_Preserve RO_Sum oq)) /\
  reductions 3 op = [(mkBox (mkIdx 6 0 0) (mkIdx 8 0 0), RO_Sum, Some [0; 1], Some [0]); (mkBox (mkIdx 8 0 0) (mkIdx 12 0 0), RO_Sum, Some [0; 1], Some [1])] /\
  with_member 1 (reductions 3 op) = with_member 0 (reductions 3 oq).
Proof. do 2 eexists. split; [exact ex_good_tb|]. vmsplit. Qed.

(* ---------- C24: initialisation ---------- *)

Theorem C24_init : forall qb sp (f : option npart) t l red, let g := pa_group (np_p t) in let me := g_myid g in
  space_eq (pa_space (np_p t)) sp = true ->
  (forall f', f = Some f' -> space_eq (pa_space (np_p f')) sp = true /\ pa_group (np_p f') = g) ->
  pa_my (np_p t) = Some l -> FrozenList l -> rl_space l = sp -> 0 <= me < rl_tids l ->
  (exists o, calc_transition qb sp f (Some t) DF_Init red = Ok (Some (mkTrans sp g DF_Init red o)) /\
     (is_reduction red = true \/ forall i, ~ Owns l me i) /\
     tp_local o = [] /\ tp_send o = [] /\ tp_recv o = [] /\ tp_red o = [] /\
     (forall i, Owns l me i <-> exists x, In x (tp_init o) /\ InBox (sp_dims sp) i (it_box x)) /\
     (forall x, In x (tp_init o) -> it_redOp x = red /\ NonEmpty (sp_dims sp) (it_box x) /\
        exists y, rl_tidrange l me (it_rangeNo x) = Ok (Some y) /\ t_box y = it_box x /\ t_mapNo y = it_mapNo x)) \/
  (calc_transition qb sp f (Some t) DF_Init red = Abort /\ is_reduction red = false /\ exists i, Owns l me i).
Proof. exact init_trans. Qed.
Example C24_case : exists o, pa_my (np_p (ex_np 2 20 3 1 ex_hal)) = Some ex_hal /\ FrozenList ex_hal /\
  calc_transition ex_qb (exsp 20) None (Some (ex_np 2 20 3 1 ex_hal)) DF_Init RO_Sum = Ok (Some (mkTrans (exsp 20) (exgroup 3 1) DF_Init RO_Sum o)) /\
  tp_init o = [mkInitT (mkBox (mkIdx 6 0 0) (mkIdx 16 0 0)) 0 0 RO_Sum].
Proof. eexists. split; [reflexivity|]. split; [exact ex_hal_frozen|]. vmsplit. Qed.

(* ---------- C25: 2d and 3d ---------- *)

(* Missing from the full claim: partitionings with several owners before (there sends and
   receives may not match, see the refutation), and empty ranges. *)
Theorem C25_transition_partial : forall qb sp gsize me fl tl f t,
  GoodNd sp gsize fl tl -> NoEmpty fl -> NoEmpty tl -> Unique fl -> SeesAll sp gsize me fl tl f t ->
  exists o, calc_transition qb sp (Some f) (Some t) DF_Preserve RO_None = Ok (Some (mkTrans sp (pa_group (np_p f)) DF_Preserve RO_None o)) /\
    (forall i, NdAt (sp_dims sp) me fl tl o i) /\ NdMaps (sp_dims sp) me fl tl o /\
    (OwnDisjoint fl -> OwnDisjoint tl -> forall i, AtMostOnce (sp_dims sp) i (map lo_box (tp_local o) ++ map rc_box (tp_recv o))).
Proof.
  intros qb sp gsize me fl tl f t G N1 N2 U S. rewrite (nd_unfold qb sp gsize me fl tl f t RO_None G S).
  pose proof (sa_in _ _ _ _ _ _ _ S) as Hme. destruct (nd_none sp gsize fl tl G me Hme) as [o [O1 O2]]. rewrite O1. exists o. split; [reflexivity|].
  split; [|split].
  - intros i. exact (nd_at sp gsize fl tl G N1 N2 U me o Hme O2 i).
  - exact (nd_maps sp gsize fl tl G N1 N2 me o Hme O2).
  - intros D1 D2 i. exact (nd_once sp gsize fl tl G N1 N2 U me o Hme O2 D1 D2 i).
Qed.
(* the same messages at both ends; in the same order if one end has only one range *)
Theorem C25_messages_match_partial : forall qb qb' sp gsize p q fl tl f t f' t' op oq,
  GoodNd sp gsize fl tl -> NoEmpty fl -> NoEmpty tl -> Unique fl -> p <> q ->
  SeesAll sp gsize p fl tl f t -> SeesAll sp gsize q fl tl f' t' ->
  calc_transition qb sp (Some f) (Some t) DF_Preserve RO_None = Ok (Some (mkTrans sp (pa_group (np_p f)) DF_Preserve RO_None op)) ->
  calc_transition qb' sp (Some f') (Some t') DF_Preserve RO_None = Ok (Some (mkTrans sp (pa_group (np_p f')) DF_Preserve RO_None oq)) ->
  Permutation (sent_to op q) (expected_from oq p) /\
  (AtMostOne fl p \/ AtMostOne tl q -> sent_to op q = expected_from oq p).
Proof.
  intros qb qb' sp gsize p q fl tl f t f' t' op oq G N1 N2 U N S S' R R'.
  rewrite (nd_unfold qb sp gsize p fl tl f t RO_None G S) in R. rewrite (nd_unfold qb' sp gsize q fl tl f' t' RO_None G S') in R'.
  pose proof (sa_in _ _ _ _ _ _ _ S) as Hp. pose proof (sa_in _ _ _ _ _ _ _ S') as Hq.
  destruct (nd_none sp gsize fl tl G p Hp) as [o [O1 O2]]. destruct (nd_none sp gsize fl tl G q Hq) as [o' [P1 P2]].
  rewrite O1 in R. cbn [obind] in R. injection R as ->. rewrite P1 in R'. cbn [obind] in R'. injection R' as ->. split.
  - exact (nd_match sp gsize fl tl G N1 N2 U p q op oq Hp Hq N O2 P2).
  - exact (nd_match_order sp gsize fl tl G N1 N2 U p q op oq Hp Hq N O2 P2).
Qed.
(* Reductions: only from All to All or to one process; otherwise the calculation aborts *)
Theorem C25_reduction : forall qb sp gsize me fl tl f t red,
  GoodNd sp gsize fl tl -> NoEmpty fl -> SeesAll sp gsize me fl tl f t -> red <> RO_None ->
  (exists o outs, calc_transition qb sp (Some f) (Some t) DF_Preserve red = Ok (Some (mkTrans sp (pa_group (np_p f)) DF_Preserve red o)) /\
     rl_isAll fl = true /\
     ((exists q, rl_isSingle tl = Ok q /\ 0 <= q /\ outs = [q]) \/ (rl_isSingle tl = Ok (-1) /\ rl_isAll tl = true /\ outs = zcount gsize)) /\
     reductions gsize o = [(sp_box sp, red, Some (zcount gsize), Some outs)] /\ tp_send o = [] /\ tp_recv o = [] /\ tp_init o = []) \/
  (calc_transition qb sp (Some f) (Some t) DF_Preserve red = Abort /\
     ~ (rl_isAll fl = true /\ ((exists q, rl_isSingle tl = Ok q /\ 0 <= q) \/ rl_isAll tl = true))).
Proof.
  intros qb sp gsize me fl tl f t red G N S R. rewrite (nd_unfold qb sp gsize me fl tl f t red G S).
  assert (R' : is_reduction red = true) by (destruct red; auto; congruence).
  destruct (nd_reduce sp gsize fl tl G N me red (sa_in _ _ _ _ _ _ _ S) R') as [[o [outs [O1 [O2 [O3 [O4 [O5 [O6 [O7 _]]]]]]]]]|[O1 O2]]; rewrite O1.
  - left. exists o, outs. auto 10.
  - right. auto.
Qed.

Definition exsp2 (a b : Z) : space := mkSpace 8 2 (mkBox (mkIdx 0 0 0) (mkIdx a b 0)).
Definition exrng2 (x0 y0 x1 y1 : Z) : range := mkRange (Some (exsp2 4 4)) (mkBox (mkIdx x0 y0 0) (mkIdx x1 y1 0)).
Definition ex_run2 (cs : list acall) : rlist :=
  match run_partitioner exq (fixed cs false) (mkParams (exsp2 4 4) (exgroup 2 0) None) None with Ok l => l | _ => rl_new (exsp 0) 0 end.
Definition ex_np2 (name me : Z) (l : rlist) : npart := mkNp name (mkPartg (exsp2 4 4) (exgroup 2 me) [(RIfull, l)]).
Lemma ex_run2_frozen cs l : run_partitioner exq (fixed cs false) (mkParams (exsp2 4 4) (exgroup 2 0) None) None = Ok l -> FrozenList l.
Proof. intros R. refine (run_frozen _ _ _ _ _ exq_good _ _ R); [right; left; reflexivity|simpl; lia]. Qed.
Definition ex_cols : rlist := Eval vm_compute in ex_run2 [ACrange 0 (exrng2 0 0 2 4) 0; ACrange 1 (exrng2 2 0 4 4) 0].
Definition ex_rows : rlist := Eval vm_compute in ex_run2 [ACrange 0 (exrng2 0 0 4 2) 0; ACrange 1 (exrng2 0 2 4 4) 0].
Definition ex_cols0 : rlist := Eval vm_compute in ex_run2 [ACrange 0 (exrng2 0 0 2 4) 0; ACrange 0 (exrng2 2 0 4 4) 0].
Definition ex_rows1 : rlist := Eval vm_compute in ex_run2 [ACrange 1 (exrng2 0 0 4 2) 0; ACrange 1 (exrng2 0 2 4 4) 0].
Definition ex_copy : rlist := Eval vm_compute in ex_run2 [ACrange 0 (exrng2 0 0 4 4) 0; ACrange 1 (exrng2 0 0 2 4) 0].
Definition ex_part : rlist := Eval vm_compute in ex_run2 [ACrange 0 (exrng2 2 0 4 4) 0; ACrange 1 (exrng2 0 0 2 4) 0].
Lemma ex_cols_frozen : FrozenList ex_cols.
Proof. apply (ex_run2_frozen [ACrange 0 (exrng2 0 0 2 4) 0; ACrange 1 (exrng2 2 0 4 4) 0]). vm_compute. reflexivity. Qed.
Lemma ex_rows_frozen : FrozenList ex_rows.
Proof. apply (ex_run2_frozen [ACrange 0 (exrng2 0 0 4 2) 0; ACrange 1 (exrng2 0 2 4 4) 0]). vm_compute. reflexivity. Qed.
Lemma ex_cols0_frozen : FrozenList ex_cols0.
Proof. apply (ex_run2_frozen [ACrange 0 (exrng2 0 0 2 4) 0; ACrange 0 (exrng2 2 0 4 4) 0]). vm_compute. reflexivity. Qed.
Lemma ex_rows1_frozen : FrozenList ex_rows1.
Proof. apply (ex_run2_frozen [ACrange 1 (exrng2 0 0 4 2) 0; ACrange 1 (exrng2 0 2 4 4) 0]). vm_compute. reflexivity. Qed.
Lemma ex_copy_frozen : FrozenList ex_copy.
Proof. apply (ex_run2_frozen [ACrange 0 (exrng2 0 0 4 4) 0; ACrange 1 (exrng2 0 0 2 4) 0]). vm_compute. reflexivity. Qed.
Lemma ex_part_frozen : FrozenList ex_part.
Proof. apply (ex_run2_frozen [ACrange 0 (exrng2 2 0 4 4) 0; ACrange 1 (exrng2 0 0 2 4) 0]). vm_compute. reflexivity. Qed.
Lemma ex_goodnd fl tl : FrozenList fl -> FrozenList tl -> rl_space fl = exsp2 4 4 -> rl_space tl = exsp2 4 4 -> rl_tids fl = 2 -> rl_tids tl = 2 ->
  GoodNd (exsp2 4 4) 2 fl tl.
Proof. intros. constructor; auto. Qed.
Lemma ex_seesall me fl tl : 0 <= me < 2 -> SeesAll (exsp2 4 4) 2 me fl tl (ex_np2 1 me fl) (ex_np2 2 me tl).
Proof. intros. constructor; simpl; auto. Qed.

Example C25_case : exists o o',
  GoodNd (exsp2 4 4) 2 ex_cols ex_rows /\ NoEmpty ex_cols /\ NoEmpty ex_rows /\ Unique ex_cols /\ OwnDisjoint ex_cols /\ OwnDisjoint ex_rows /\
  AtMostOne ex_cols 0 /\ SeesAll (exsp2 4 4) 2 0 ex_cols ex_rows (ex_np2 1 0 ex_cols) (ex_np2 2 0 ex_rows) /\
  calc_transition ex_qb (exsp2 4 4) (Some (ex_np2 1 0 ex_cols)) (Some (ex_np2 2 0 ex_rows)) DF_Preserve RO_None =
    Ok (Some (mkTrans (exsp2 4 4) (exgroup 2 0) DF_Preserve RO_None o)) /\
  calc_transition ex_qb (exsp2 4 4) (Some (ex_np2 1 1 ex_cols)) (Some (ex_np2 2 1 ex_rows)) DF_Preserve RO_None =
    Ok (Some (mkTrans (exsp2 4 4) (exgroup 2 1) DF_Preserve RO_None o')) /\
  length (tp_local o) = 1%nat /\ sent_to o 1 = [mkBox (mkIdx 0 2 0) (mkIdx 2 4 0)] /\ expected_from o' 0 = [mkBox (mkIdx 0 2 0) (mkIdx 2 4 0)].
Proof.
  do 2 eexists. split; [apply ex_goodnd; try reflexivity; [exact ex_cols_frozen|exact ex_rows_frozen]|].
  split; [apply noempty_check; [exact ex_cols_frozen|reflexivity]|]. split; [apply noempty_check; [exact ex_rows_frozen|reflexivity]|].
  split; [apply unique_check; [exact ex_cols_frozen|reflexivity]|]. split; [apply owndisjoint_check; [exact ex_cols_frozen|reflexivity]|].
  split; [apply owndisjoint_check; [exact ex_rows_frozen|reflexivity]|]. split; [reflexivity|]. split; [apply ex_seesall; lia|]. vmsplit.
Qed.
Definition ex_all2 : rlist := Eval vm_compute in ex_run2 [ACrange 0 (exrng2 0 0 4 4) 0; ACrange 1 (exrng2 0 0 4 4) 0].
Definition ex_one2 : rlist := Eval vm_compute in ex_run2 [ACrange 1 (exrng2 0 0 4 4) 0].
Lemma ex_all2_frozen : FrozenList ex_all2.
Proof. apply (ex_run2_frozen [ACrange 0 (exrng2 0 0 4 4) 0; ACrange 1 (exrng2 0 0 4 4) 0]). vm_compute. reflexivity. Qed.
Lemma ex_one2_frozen : FrozenList ex_one2.
Proof. apply (ex_run2_frozen [ACrange 1 (exrng2 0 0 4 4) 0]). vm_compute. reflexivity. Qed.
Example C25_reduction_case : exists o, GoodNd (exsp2 4 4) 2 ex_all2 ex_one2 /\ NoEmpty ex_all2 /\
  calc_transition ex_qb (exsp2 4 4) (Some (ex_np2 1 0 ex_all2)) (Some (ex_np2 2 0 ex_one2)) DF_Preserve RO_Sum =
    Ok (Some (mkTrans (exsp2 4 4) (exgroup 2 0) DF_Preserve RO_Sum o)) /\
  reductions 2 o = [(mkBox (mkIdx 0 0 0) (mkIdx 4 4 0), RO_Sum, Some [0; 1], Some [1])].
Proof.
  eexists. split; [apply ex_goodnd; try reflexivity; [exact ex_all2_frozen|exact ex_one2_frozen]|].
  split; [apply noempty_check; [exact ex_all2_frozen|reflexivity]|]. vmsplit.
Qed.

(* Finding: sender and receiver use different tests to skip a range. If a process already has
   a range it needs, others still send it; the message is never received. *)
Theorem C25_unmatched_send_refuted : exists sp fl tl f0 t0 f1 t1 o0 o1,
  GoodNd sp 2 fl tl /\ NoEmpty fl /\ NoEmpty tl /\ OwnDisjoint fl /\ OwnDisjoint tl /\ SeesAll sp 2 0 fl tl f0 t0 /\ SeesAll sp 2 1 fl tl f1 t1 /\
  (forall qb, calc_transition qb sp (Some f0) (Some t0) DF_Preserve RO_None = Ok (Some (mkTrans sp (pa_group (np_p f0)) DF_Preserve RO_None o0))) /\
  (forall qb, calc_transition qb sp (Some f1) (Some t1) DF_Preserve RO_None = Ok (Some (mkTrans sp (pa_group (np_p f1)) DF_Preserve RO_None o1))) /\
  length (sent_to o0 1) = 1%nat /\ expected_from o1 0 = [].
Proof.
  exists (exsp2 4 4), ex_copy, ex_part, (ex_np2 1 0 ex_copy), (ex_np2 2 0 ex_part), (ex_np2 1 1 ex_copy), (ex_np2 2 1 ex_part). do 2 eexists.
  split; [apply ex_goodnd; try reflexivity; [exact ex_copy_frozen|exact ex_part_frozen]|].
  split; [apply noempty_check; [exact ex_copy_frozen|reflexivity]|]. split; [apply noempty_check; [exact ex_part_frozen|reflexivity]|].
  split; [apply owndisjoint_check; [exact ex_copy_frozen|reflexivity]|]. split; [apply owndisjoint_check; [exact ex_part_frozen|reflexivity]|].
  split; [apply ex_seesall; lia|]. split; [apply ex_seesall; lia|].
  split; [intros qb; vm_compute; reflexivity|]. split; [intros qb; vm_compute; reflexivity|]. vmsplit.
Qed.

(* Finding: with more than one range at both ends the order of messages differs. Here the
   second and third message have the same size, so the values are silently swapped. *)
Theorem C25_message_order_refuted : exists sp fl tl f0 t0 f1 t1 o0 o1 a b c d,
  GoodNd sp 2 fl tl /\ NoEmpty fl /\ NoEmpty tl /\ Unique fl /\ Unique tl /\ OwnDisjoint fl /\ OwnDisjoint tl /\ SeesAll sp 2 0 fl tl f0 t0 /\ SeesAll sp 2 1 fl tl f1 t1 /\
  (forall qb, calc_transition qb sp (Some f0) (Some t0) DF_Preserve RO_None = Ok (Some (mkTrans sp (pa_group (np_p f0)) DF_Preserve RO_None o0))) /\
  (forall qb, calc_transition qb sp (Some f1) (Some t1) DF_Preserve RO_None = Ok (Some (mkTrans sp (pa_group (np_p f1)) DF_Preserve RO_None o1))) /\
  sent_to o0 1 = [a; b; c; d] /\ expected_from o1 0 = [a; c; b; d] /\ b <> c /\ box_size 2 b = box_size 2 c.
Proof.
  exists (exsp2 4 4), ex_cols0, ex_rows1, (ex_np2 1 0 ex_cols0), (ex_np2 2 0 ex_rows1), (ex_np2 1 1 ex_cols0), (ex_np2 2 1 ex_rows1). do 6 eexists.
  split; [apply ex_goodnd; try reflexivity; [exact ex_cols0_frozen|exact ex_rows1_frozen]|].
  split; [apply noempty_check; [exact ex_cols0_frozen|reflexivity]|]. split; [apply noempty_check; [exact ex_rows1_frozen|reflexivity]|].
  split; [apply unique_check; [exact ex_cols0_frozen|reflexivity]|]. split; [apply unique_check; [exact ex_rows1_frozen|reflexivity]|].
  split; [apply owndisjoint_check; [exact ex_cols0_frozen|reflexivity]|]. split; [apply owndisjoint_check; [exact ex_rows1_frozen|reflexivity]|].
  split; [apply ex_seesall; lia|]. split; [apply ex_seesall; lia|].
  split; [intros qb; vm_compute; reflexivity|]. split; [intros qb; vm_compute; reflexivity|].
  split; [vm_compute; reflexivity|]. split; [vm_compute; reflexivity|]. split; [discriminate|vm_compute; reflexivity].
Qed.

(* ---------- C49: filtered range lists are enough ---------- *)

(* A process that only knows the ranges meeting one of its own ranges (compare
   C17_intersecting_ranges) gets the same transition as one that knows all ranges. *)
Theorem C49_filtered_transition : forall sp gsize me fl tl fl' tl' qb qb' red f t f' t',
  Good1d sp gsize fl tl -> Good1d sp gsize fl' tl' ->
  (forall u b g, HasRange fl' u b g -> HasRange fl u b g) -> (forall u b g, HasRange tl' u b g -> HasRange tl u b g) ->
  (forall u b g, HasRange fl u b g -> (exists i, (Owns fl me i \/ Owns tl me i) /\ InBox 1 i b) -> HasRange fl' u b g) ->
  (forall u b g, HasRange tl u b g -> (exists i, (Owns fl me i \/ Owns tl me i) /\ InBox 1 i b) -> HasRange tl' u b g) ->
  c_qsort rb_cmp qb -> c_qsort rb_cmp qb' -> Sees sp gsize me fl tl f t -> Sees sp gsize me fl' tl' f' t' ->
  (exists o o', calc_transition qb sp (Some f) (Some t) DF_Preserve red = Ok (Some (mkTrans sp (pa_group (np_p f)) DF_Preserve red o)) /\
     calc_transition qb' sp (Some f') (Some t') DF_Preserve red = Ok (Some (mkTrans sp (pa_group (np_p f')) DF_Preserve red o')) /\
     map lo_box (tp_local o') = map lo_box (tp_local o) /\
     map (fun x => (sd_box x, sd_to x)) (tp_send o') = map (fun x => (sd_box x, sd_to x)) (tp_send o) /\
     map (fun x => (rc_box x, rc_from x)) (tp_recv o') = map (fun x => (rc_box x, rc_from x)) (tp_recv o) /\
     reductions gsize o' = reductions gsize o) \/
  (calc_transition qb sp (Some f) (Some t) DF_Preserve red = Abort /\ calc_transition qb' sp (Some f') (Some t') DF_Preserve red = Abort).
Proof. intros sp gsize me fl tl fl' tl' qb qb' red f t f' t' G G' A B C D Q Q' S S'. exact (filt_trans sp gsize me fl tl fl' tl' G G' A B C D qb qb' red f t f' t' Q Q' S S'). Qed.

(* process 0: block 0 and its halo meet blocks 0 and 1, and halos 0 and 1 *)
Definition ex_filter : outcome rfilter := ofold (fun sf x => rangefilter_add_idxfilter sf (fst x) (snd x)) [(ex_blk, 0); (ex_hal, 0)] rangefilter_new.
Definition ex_runf (cs : list acall) : outcome rlist :=
  do sf <- ex_filter; run_partitioner exq (fixed cs false) (mkParams (exsp 20) (exgroup 3 0) None) (Some sf).
Definition ex_blkc := [ACrange 0 (exrng 20 0 8) 0; ACrange 1 (exrng 20 8 14) 0; ACrange 2 (exrng 20 14 20) 0].
Definition ex_halc := [ACrange 2 (exrng 20 12 20) 0; ACrange 0 (exrng 20 0 10) 0; ACrange 1 (exrng 20 6 16) 0].
Definition ex_blk0 : rlist := Eval vm_compute in match ex_runf ex_blkc with Ok l => l | _ => rl_new (exsp 0) 0 end.
Definition ex_hal0 : rlist := Eval vm_compute in match ex_runf ex_halc with Ok l => l | _ => rl_new (exsp 0) 0 end.
Lemma ex_runf_frozen cs l : ex_runf cs = Ok l -> FrozenList l.
Proof.
  unfold ex_runf. destruct ex_filter as [sf| | | |]; cbn [obind]; try discriminate. intros R.
  refine (run_frozen _ _ _ _ _ exq_good _ _ R); [left; reflexivity|simpl; lia].
Qed.
Lemma ex_blk0_frozen : FrozenList ex_blk0.
Proof. apply (ex_runf_frozen ex_blkc). vm_compute. reflexivity. Qed.
Lemma ex_hal0_frozen : FrozenList ex_hal0.
Proof. apply (ex_runf_frozen ex_halc). vm_compute. reflexivity. Qed.
Example C49_case : Good1d (exsp 20) 3 ex_blk ex_hal /\ Good1d (exsp 20) 3 ex_blk0 ex_hal0 /\
  (forall u b g, HasRange ex_blk0 u b g -> HasRange ex_blk u b g) /\ (forall u b g, HasRange ex_hal0 u b g -> HasRange ex_hal u b g) /\
  (forall u b g, HasRange ex_blk u b g -> (exists i, (Owns ex_blk 0 i \/ Owns ex_hal 0 i) /\ InBox 1 i b) -> HasRange ex_blk0 u b g) /\
  (forall u b g, HasRange ex_hal u b g -> (exists i, (Owns ex_blk 0 i \/ Owns ex_hal 0 i) /\ InBox 1 i b) -> HasRange ex_hal0 u b g) /\
  c_qsort rb_cmp ex_qb /\ Sees (exsp 20) 3 0 ex_blk ex_hal (ex_np 1 20 3 0 ex_blk) (ex_np 2 20 3 0 ex_hal) /\
  Sees (exsp 20) 3 0 ex_blk0 ex_hal0 (mkNp 1 (mkPartg (exsp 20) (exgroup 3 0) [(RIintersect 2, ex_blk0)])) (mkNp 2 (mkPartg (exsp 20) (exgroup 3 0) [(RIintersect 1, ex_hal0)])).
Proof.
  pose proof (proj1 (FrozenList_Frozen _ ex_blk_frozen)) as F1. pose proof (proj1 (FrozenList_Frozen _ ex_hal_frozen)) as F2.
  pose proof (proj1 (FrozenList_Frozen _ ex_blk0_frozen)) as F3. pose proof (proj1 (FrozenList_Frozen _ ex_hal0_frozen)) as F4.
  assert (OB : forall i, Owns ex_blk 0 i \/ Owns ex_hal 0 i -> 0 <= i0 i < 10).
  { intros i [H|H]; apply owns_iff_trs in H; try exact ex_blk_frozen; try exact ex_hal_frozen; destruct H as [x [X1 [X2 X3]]]; simpl in X1;
      repeat (destruct X1 as [<-|X1]; [unfold InBox in X3; simpl in *; lia|]); destruct X1. }
  conjs.
  - exact ex_good_bh.
  - apply ex_good1d; try reflexivity; try lia; [exact ex_blk0_frozen|exact ex_hal0_frozen].
  - intros u b g H. apply hasrange_in in H; auto. apply hasrange_in; auto. destruct H as [x [X1 [X2 [X3 X4]]]]. simpl in X1.
    exists x. split; [|auto]. destruct X1 as [<-|[<-|[]]]; simpl; auto 6.
  - intros u b g H. apply hasrange_in in H; auto. apply hasrange_in; auto. destruct H as [x [X1 [X2 [X3 X4]]]]. simpl in X1.
    exists x. split; [|auto]. destruct X1 as [<-|[<-|[]]]; simpl; auto 6.
  - intros u b g H [i [Hi Hb]]. apply OB in Hi. apply hasrange_in in H; auto. apply hasrange_in; auto. destruct H as [x [X1 [X2 [X3 X4]]]]. simpl in X1.
    exists x. split; [|auto]. rewrite <- X3 in Hb. unfold InBox in Hb. destruct X1 as [<-|[<-|[<-|[]]]]; simpl in Hb; try lia; simpl; auto 6.
  - intros u b g H [i [Hi Hb]]. apply OB in Hi. apply hasrange_in in H; auto. apply hasrange_in; auto. destruct H as [x [X1 [X2 [X3 X4]]]]. simpl in X1.
    exists x. split; [|auto]. rewrite <- X3 in Hb. unfold InBox in Hb. destruct X1 as [<-|[<-|[<-|[]]]]; simpl in Hb; try lia; simpl; auto 6.
  - exact ex_qb_ok.
  - apply ex_sees; lia.
  - constructor; simpl; auto; lia.
Qed.

Print Assumptions C21_transition.
Print Assumptions C21_delivered_once.
Print Assumptions C21_wide_space_refuted.
Print Assumptions C21_overlap_refuted.
Print Assumptions C21_empty_range_refuted.
Print Assumptions C22_messages_match.
Print Assumptions C23_reductions_agree.
Print Assumptions C23_groups.
Print Assumptions C23_group_queries.
Print Assumptions C24_init.
Print Assumptions C25_transition_partial.
Print Assumptions C25_messages_match_partial.
Print Assumptions C25_reduction.
Print Assumptions C25_unmatched_send_refuted.
Print Assumptions C25_message_order_refuted.
Print Assumptions C49_filtered_transition.
