(* C66: switches of programs with one process (single-process backend) *)
From Coq Require Import ZArith List Bool Lia ZifyBool ZifyNat.
From Verif Require Import Base ListFacts Model_Space Spec_Space Proof_Space Model_RangeList Spec_RangeList Proof_RangeList Proof_RangeList4 Proof_RangeList5
  Model_Partitioner Spec_Partitioner Proof_Partitioner Proof_Partitioner2 Proof_Partitioner3 Prop_Partitioner Model_Group Proof_Group Model_Transition Spec_Transition
  Proof_Trans1 Proof_Trans2 Proof_Trans3 Proof_Trans4 Proof_Trans5 Proof_Trans6 Proof_Trans7 Proof_Trans8 Proof_Migrate Proof_Group3 Prop_Transition Model_Single Spec_Single Proof_Single.
Import ListNotations.
Open Scope Z_scope.

(* 1d: if the process owns no index afterwards which it did not own before, the switch
   returns with every reduction known to laik. There is nothing to send, receive or reduce, the
   backend changes nothing; every index owned afterwards is copied locally exactly once and no
   other index is written. *)
Theorem C66_local : forall qb sp fl tl f t red from to,
  Good1d sp 1 fl tl -> Sees sp 1 0 fl tl f t -> c_qsort rb_cmp qb -> NothingNew fl tl -> ~ Custom red ->
  exists o, calc_transition qb sp (Some f) (Some t) DF_Preserve red = Ok (Some (mkTrans sp (pa_group (np_p f)) DF_Preserve red o)) /\
    Silent o /\ (forall i, OneIf (nlocal o i) (Owns tl 0 i)) /\
    switch_backend qb sp f t red from to = Ok to.
Proof.
  intros qb sp fl tl f t red from to G S Q N C.
  destruct (C21_transition qb sp 1 0 fl tl f t red G S Q) as [[o [O1 [O2 [O3 [O4 O5]]]]]|[_ A]].
  - exists o. split; auto. destruct (one_quiet sp fl tl G red o O3 O4) as [Q1 Q2].
    assert (Q3 : tp_red o = []).
    { destruct (tp_red o) as [|x r] eqn:E; auto. exfalso.
      assert (Hx : In x (tp_red o)) by (rewrite E; left; auto).
      assert (B : i0 (b_from (rd_box x)) < i0 (b_to (rd_box x))).
      { apply (mo_nonempty _ _ _ _ O4). rewrite !in_app_iff. right. right. right. apply in_map. auto. }
      destruct (one_red sp fl tl G red o (b_from (rd_box x)) x O3 Hx (inb_first _ B)) as [K1 K2]. apply K2, N, K1. }
    assert (Si : Silent o) by (constructor; auto). split; auto. split.
    + intros i. destruct (one_local sp fl tl G red o i O3) as [L1 L2]. split.
      * intros O. apply L1. split; auto.
      * intros O. apply L2. tauto.
    + unfold switch_backend. rewrite O1. cbn [obind]. apply silent_part. exact Si.
  - exfalso. apply A. intros i Hi. assert (O : Owns fl 0 i) by (destruct Hi; auto). split.
    + intros _ n ->. apply C. exists n. auto.
    + intros K. exfalso. apply (K 0). apply only_one; auto; apply G.
Qed.

(* Calling the backend nevertheless would return without changing anything *)
Theorem C66_backend_idle : forall qb sp fl tl f t red tr from to,
  Good1d sp 1 fl tl -> Sees sp 1 0 fl tl f t -> c_qsort rb_cmp qb -> NothingNew fl tl -> ~ Custom red ->
  calc_transition qb sp (Some f) (Some t) DF_Preserve red = Ok (Some tr) -> single_exec tr from to = Ok to.
Proof.
  intros qb sp fl tl f t red tr from to G S Q N C R.
  destruct (C66_local qb sp fl tl f t red from to G S Q N C) as [o [O1 [[A B D _] _]]]. rewrite O1 in R. injection R as <-.
  unfold single_exec. cbn [tr_ops]. rewrite A, B, D. reflexivity.
Qed.

(* This is the case for every partitioning to switch from which was made by a partitioner
   without flag LAIK_PF_NoFullCoverage (1d, 2d or 3d) *)
Theorem C66_covering : forall q pr p fl tl,
  good_sorts q -> valid_dims (sp_dims (pp_space p)) -> g_size (pp_group p) = 1 -> pr_nocover pr = false ->
  run_partitioner q pr p None = Ok fl -> FrozenList tl -> rl_space tl = pp_space p ->
  NothingNew fl tl.
Proof.
  intros q pr p fl tl Q D N C R F S i O.
  destruct (C16_accepted_covers q pr p fl Q D ltac:(lia) C R i) as [t [Ht K]].
  - rewrite <- S. apply (frozen_inside tl F 0 i O).
  - assert (t = 0) by lia. subst t. exact K.
Qed.

(* 1d without reduction: a switch to an index without value ends the program *)
Theorem C66_missing : forall qb sp fl tl f t from to,
  Good1d sp 1 fl tl -> Sees sp 1 0 fl tl f t -> c_qsort rb_cmp qb -> ~ NothingNew fl tl ->
  switch_backend qb sp f t RO_None from to = Abort.
Proof.
  intros qb sp fl tl f t from to G S Q N.
  destruct (C21_transition qb sp 1 0 fl tl f t RO_None G S Q) as [[o [O1 [O2 _]]]|[A _]]; [|unfold switch_backend; rewrite A; reflexivity].
  exfalso. apply N. intros i Hi. pose proof (g_own_owns _ _ _ _ G true 0 i) as D. simpl in D.
  destruct (in_dec Z.eq_dec 0 (owners 1 (rl_trs fl) (i0 i))) as [K|K]; [apply D; exact K|]. exfalso.
  destruct (O2 i (or_intror Hi)) as [_ H]. apply H; auto. intros s Hs.
  assert (Os : Owns fl s i) by (apply Hs; auto). assert (s = 0) by (apply (owns_one fl s i); auto; apply G). subst s.
  apply K, D, Os.
Qed.

(* 1d in general: never a message, and reductions only over indexes which were not owned *)
Theorem C66_messages : forall qb sp fl tl f t red tr,
  Good1d sp 1 fl tl -> Sees sp 1 0 fl tl f t -> c_qsort rb_cmp qb ->
  calc_transition qb sp (Some f) (Some t) DF_Preserve red = Ok (Some tr) ->
  tp_send (tr_ops tr) = [] /\ tp_recv (tr_ops tr) = [] /\
  (forall i, OneIf (nlocal (tr_ops tr) i) (Owns fl 0 i /\ Owns tl 0 i)) /\
  (forall i x, In x (tp_red (tr_ops tr)) -> InBox 1 i (rd_box x) -> Owns tl 0 i /\ ~ Owns fl 0 i) /\
  (forall i, Owns tl 0 i -> ~ Owns fl 0 i -> exists x, In x (tp_red (tr_ops tr)) /\ InBox 1 i (rd_box x)).
Proof.
  intros qb sp fl tl f t red tr G S Q R.
  destruct (C21_transition qb sp 1 0 fl tl f t red G S Q) as [[o [O1 [_ [O3 [O4 _]]]]]|[A _]]; [|rewrite A in R; discriminate].
  rewrite O1 in R. injection R as <-. cbn [tr_ops]. destruct (one_quiet sp fl tl G red o O3 O4) as [Q1 Q2].
  split; auto. split; auto. split; [|split].
  - intros i. apply (one_local sp fl tl G red o i O3).
  - intros i x Hx Hi. apply (one_red sp fl tl G red o i x O3 Hx). destruct Hi as [Hi _]. unfold inb. lia.
  - intros i Hi Hn. destruct (O3 i) as [_ _ _ [D1 _] _].
    assert (N : nred o i = 1%nat).
    { apply D1. split; auto. intros s Hs. assert (Os : Owns fl s i) by (apply Hs; auto).
      assert (s = 0) by (apply (owns_one fl s i); auto; apply G). subst s. auto. }
    unfold nred in N. destruct (filter (fun x => inb i (rd_box x)) (tp_red o)) as [|x r] eqn:E; [discriminate|].
    assert (Hx : In x (filter (fun x => inb i (rd_box x)) (tp_red o))) by (rewrite E; left; auto).
    apply filter_In in Hx. destruct Hx as [X1 X2]. exists x. split; auto. unfold inb in X2. split; [lia|]. split; lia.
Qed.

(* 2d and 3d without reduction: always returns, nothing for the backend, every index owned
   before and afterwards is copied locally and no other *)
Theorem C66_local_nd : forall qb sp fl tl f t from to,
  GoodNd sp 1 fl tl -> NoEmpty fl -> NoEmpty tl -> SeesAll sp 1 0 fl tl f t ->
  exists o, calc_transition qb sp (Some f) (Some t) DF_Preserve RO_None = Ok (Some (mkTrans sp (pa_group (np_p f)) DF_Preserve RO_None o)) /\
    Silent o /\ (forall i, CopiedLocally (sp_dims sp) o i <-> Owns fl 0 i /\ Owns tl 0 i) /\
    switch_backend qb sp f t RO_None from to = Ok to.
Proof.
  intros qb sp fl tl f t from to G N1 N2 S.
  assert (U : Unique fl) by (apply unique_one; apply G).
  destruct (C25_transition_partial qb sp 1 0 fl tl f t G N1 N2 U S) as [o [O1 [O2 _]]]. exists o. split; auto.
  assert (P : nd_preserve 1 0 RO_None sp fl tl tops_empty = Ok o).
  { rewrite (nd_unfold qb sp 1 0 fl tl f t RO_None G S) in O1.
    destruct (nd_preserve 1 0 RO_None sp fl tl tops_empty); try discriminate. cbn [obind] in O1. congruence. }
  apply nd_one_quiet in P. destruct P as [P1 [P2 [P3 P4]]]. assert (Si : Silent o) by (constructor; auto).
  split; auto. split.
  - intros i. apply (na_local _ _ _ _ _ _ (O2 i)).
  - unfold switch_backend. rewrite O1. cbn [obind]. apply silent_part. exact Si.
Qed.

(* Switches which do not preserve data (initialisation, no data flow, the first or the last
   switch), any number of processes: nothing is copied and nothing is left to the backend *)
Theorem C66_no_data : forall qb sp f t flow red tr from to,
  calc_transition qb sp f t flow red = Ok (Some tr) -> flow <> DF_Preserve \/ f = None \/ t = None ->
  tp_local (tr_ops tr) = [] /\ tp_send (tr_ops tr) = [] /\ tp_recv (tr_ops tr) = [] /\ tp_red (tr_ops tr) = [] /\
  backend_part tr from to = Ok to.
Proof.
  intros qb sp f t flow red tr from to H K. destruct (other_flows qb sp f t flow red tr H K) as [A [B [C D]]].
  repeat (split; auto). unfold backend_part, needs_backend. rewrite B, C, D. reflexivity.
Qed.
Example C66_no_data_case : exists tr,
  calc_transition ex_qb (exsp 20) None (Some (ex_np 2 20 3 1 ex_hal)) DF_Init RO_Sum = Ok (Some tr) /\ length (tp_init (tr_ops tr)) = 1%nat.
Proof. eexists. vmsplit. Qed.

(* Finding: in 2d and 3d every switch with a reduction ends the program, also from All to All
   where the reduction over one process should give back the values *)
Theorem C66_reduction_nd_refuted : forall qb sp fl tl f t red from to,
  GoodNd sp 1 fl tl -> NoEmpty fl -> SeesAll sp 1 0 fl tl f t -> red <> RO_None ->
  switch_backend qb sp f t red from to = Abort.
Proof.
  intros qb sp fl tl f t red from to G N S R. unfold switch_backend.
  destruct (C25_reduction qb sp 1 0 fl tl f t red G N S R) as [[o [outs [O1 [_ [_ [O4 _]]]]]]|[A _]]; [|rewrite A; reflexivity].
  rewrite O1. cbn [obind]. apply nd_red_abort.
  - simpl. destruct (gn_dims _ _ _ _ G) as [->| ->]; discriminate.
  - simpl. intros E. unfold reductions in O4. rewrite E in O4. discriminate.
Qed.

(* ---------- examples and findings ---------- *)

(* one process, partitioners with flag LAIK_PF_NoFullCoverage *)
Definition nocover (cs : list acall) : partitioner := mkPartitioner (fun _ => Ok cs) false true.
Definition ex1_run (cs : list acall) : rlist :=
  match run_partitioner exq (nocover cs) (mkParams (exsp 20) (exgroup 1 0) None) None with Ok l => l | _ => rl_new (exsp 0) 0 end.
Lemma ex1_run_frozen cs l : run_partitioner exq (nocover cs) (mkParams (exsp 20) (exgroup 1 0) None) None = Ok l -> FrozenList l.
Proof. intros R. refine (run_frozen _ _ _ _ _ exq_good _ _ R); [left; reflexivity|simpl; lia]. Qed.
(* one process, 20 indexes: indexes 2-4; 3-4; 0-4; all; none *)
Definition ex1_25 : rlist := Eval vm_compute in ex1_run [ACrange 0 (exrng 20 2 5) 0].
Definition ex1_35 : rlist := Eval vm_compute in ex1_run [ACrange 0 (exrng 20 3 5) 0].
Definition ex1_05 : rlist := Eval vm_compute in ex1_run [ACrange 0 (exrng 20 0 5) 0].
Definition ex1_all : rlist := Eval vm_compute in ex1_run [ACrange 0 (exrng 20 0 20) 0].
Definition ex1_none : rlist := Eval vm_compute in ex1_run [].
Lemma ex1_25_frozen : FrozenList ex1_25.
Proof. apply (ex1_run_frozen [ACrange 0 (exrng 20 2 5) 0]). vm_compute. reflexivity. Qed.
Lemma ex1_35_frozen : FrozenList ex1_35.
Proof. apply (ex1_run_frozen [ACrange 0 (exrng 20 3 5) 0]). vm_compute. reflexivity. Qed.
Lemma ex1_05_frozen : FrozenList ex1_05.
Proof. apply (ex1_run_frozen [ACrange 0 (exrng 20 0 5) 0]). vm_compute. reflexivity. Qed.
Lemma ex1_all_frozen : FrozenList ex1_all.
Proof. apply (ex1_run_frozen [ACrange 0 (exrng 20 0 20) 0]). vm_compute. reflexivity. Qed.
Lemma ex1_none_frozen : FrozenList ex1_none.
Proof. apply (ex1_run_frozen []). vm_compute. reflexivity. Qed.
Lemma ex1_sees fl tl : Sees (exsp 20) 1 0 fl tl (ex_np 1 20 1 0 fl) (ex_np 2 20 1 0 tl).
Proof. constructor; simpl; auto; lia. Qed.
Lemma ex1_good fl tl : FrozenList fl -> FrozenList tl -> rl_space fl = exsp 20 -> rl_space tl = exsp 20 -> rl_tids fl = 1 -> rl_tids tl = 1 ->
  forallb (fun l => forallb (fun x => negb (box_isEmpty (sp_dims (rl_space l)) (t_box x))) (rl_trs l) &&
    forallb (fun t => pairs_disj (sp_dims (rl_space l)) (mine t (rl_trs l))) (zcount (rl_tids l))) [fl; tl] = true ->
  Good1d (exsp 20) 1 fl tl.
Proof. intros. apply ex_good1d; auto; lia. Qed.

Lemma ex1_new fl tl : FrozenList fl -> FrozenList tl -> rl_space fl = exsp 20 -> rl_space tl = exsp 20 ->
  forallb (fun y => existsb (fun x => (t_task x =? 0) && (i0 (b_from (t_box x)) <=? i0 (b_from (t_box y))) && (i0 (b_to (t_box y)) <=? i0 (b_to (t_box x)))) (rl_trs fl)) (rl_trs tl) = true ->
  NothingNew fl tl.
Proof.
  intros F1 F2 S1 S2 H i O. apply (owns_iff_trs tl 0 i F2) in O. destruct O as [y [Y1 [Y2 Y3]]]. rewrite S2 in Y3. destruct Y3 as [Y3 _].
  rewrite forallb_forall in H. specialize (H y Y1). apply existsb_exists in H. destruct H as [x [X1 X2]].
  apply (owns_iff_trs fl 0 i F1). exists x. split; auto. split; [lia|]. rewrite S1. split; [lia|]. split; simpl; lia.
Qed.

Example C66_case : exists o,
  Good1d (exsp 20) 1 ex1_25 ex1_35 /\ Sees (exsp 20) 1 0 ex1_25 ex1_35 (ex_np 1 20 1 0 ex1_25) (ex_np 2 20 1 0 ex1_35) /\ c_qsort rb_cmp ex_qb /\
  NothingNew ex1_25 ex1_35 /\ ~ Custom RO_Sum /\ Owns ex1_35 0 (mkIdx 4 0 0) /\
  calc_transition ex_qb (exsp 20) (Some (ex_np 1 20 1 0 ex1_25)) (Some (ex_np 2 20 1 0 ex1_35)) DF_Preserve RO_Sum =
    Ok (Some (mkTrans (exsp 20) (exgroup 1 0) DF_Preserve RO_Sum o)) /\
  tp_local o = [mkLocalT (mkBox (mkIdx 3 0 0) (mkIdx 5 0 0)) 0 0 0 0].
Proof.
  eexists. split; [apply ex1_good; try reflexivity; [exact ex1_25_frozen|exact ex1_35_frozen]|]. split; [apply ex1_sees|].
  split; [exact ex_qb_ok|]. split; [apply ex1_new; try reflexivity; [exact ex1_25_frozen|exact ex1_35_frozen]|].
  split; [intros [n H]; discriminate|].
  split; [apply (owns_iff_trs _ _ _ ex1_35_frozen); eexists; split; [left; reflexivity|]; split; [reflexivity|]; split; [simpl; lia|split; simpl; lia]|]. vmsplit.
Qed.

Example C66_covering_case : exists fl,
  run_partitioner exq (fixed [ACrange 0 (exrng 20 8 20) 0; ACrange 0 (exrng 20 0 8) 1] false) (mkParams (exsp 20) (exgroup 1 0) None) None = Ok fl /\
  good_sorts exq /\ FrozenList ex1_25 /\ rl_space ex1_25 = exsp 20 /\ rl_tids ex1_25 = 1 /\ length (rl_trs fl) = 2%nat.
Proof. eexists. split; [vm_compute; reflexivity|]. split; [exact exq_good|]. split; [exact ex1_25_frozen|]. vmsplit. Qed.

(* Finding: with a reduction, indexes without a value before get the values of other indexes.
   Index 2 to 4 have the values 72, 73, 74. After the switch to the indexes 0 to 4, the backend
   has written the values of indexes 2 and 3 as values of indexes 0 and 1. *)
Theorem C66_misplaced_refuted : exists qb sp fl tl f t,
  Good1d sp 1 fl tl /\ Sees sp 1 0 fl tl f t /\ c_qsort rb_cmp qb /\
  (forall i, Owns fl 0 i <-> 2 <= i0 i < 5) /\ (forall i, Owns tl 0 i <-> 0 <= i0 i < 5) /\
  switch_backend qb sp f t RO_Sum [Some [72; 73; 74]] [Some [0; 0; 0; 0; 0]] = Ok [Some [72; 73; 0; 0; 0]].
Proof.
  exists ex_qb, (exsp 20), ex1_25, ex1_05, (ex_np 1 20 1 0 ex1_25), (ex_np 2 20 1 0 ex1_05).
  split; [apply ex1_good; try reflexivity; [exact ex1_25_frozen|exact ex1_05_frozen]|]. split; [apply ex1_sees|]. split; [exact ex_qb_ok|].
  split; [|split].
  - intros i. rewrite (owns_iff_trs _ _ _ ex1_25_frozen). split.
    + intros [x [[<-|[]] [_ [H _]]]]. simpl in H. lia.
    + intros H. eexists. split; [left; reflexivity|]. split; [reflexivity|]. split; [simpl; lia|]. split; simpl; lia.
  - intros i. rewrite (owns_iff_trs _ _ _ ex1_05_frozen). split.
    + intros [x [[<-|[]] [_ [H _]]]]. simpl in H. lia.
    + intros H. eexists. split; [left; reflexivity|]. split; [reflexivity|]. split; [simpl; lia|]. split; simpl; lia.
  - vm_compute. reflexivity.
Qed.

(* Finding: and it reads outside of the old mapping if more indexes are new than there were *)
Theorem C66_outside_refuted : exists qb sp fl tl f t,
  Good1d sp 1 fl tl /\ Sees sp 1 0 fl tl f t /\ c_qsort rb_cmp qb /\
  (forall i, Owns fl 0 i <-> 2 <= i0 i < 5) /\ (forall i, Owns tl 0 i <-> 0 <= i0 i < 20) /\
  forall a b c w, length w = 20%nat -> switch_backend qb sp f t RO_Sum [Some [a; b; c]] [Some w] = UB.
Proof.
  exists ex_qb, (exsp 20), ex1_25, ex1_all, (ex_np 1 20 1 0 ex1_25), (ex_np 2 20 1 0 ex1_all).
  split; [apply ex1_good; try reflexivity; [exact ex1_25_frozen|exact ex1_all_frozen]|]. split; [apply ex1_sees|]. split; [exact ex_qb_ok|].
  split; [|split].
  - intros i. rewrite (owns_iff_trs _ _ _ ex1_25_frozen). split.
    + intros [x [[<-|[]] [_ [H _]]]]. simpl in H. lia.
    + intros H. eexists. split; [left; reflexivity|]. split; [reflexivity|]. split; [simpl; lia|]. split; simpl; lia.
  - intros i. rewrite (owns_iff_trs _ _ _ ex1_all_frozen). split.
    + intros [x [[<-|[]] [_ [H _]]]]. simpl in H. lia.
    + intros H. eexists. split; [left; reflexivity|]. split; [reflexivity|]. split; [simpl; lia|]. split; simpl; lia.
  - intros a b c w H. do 20 (destruct w as [|? w]; [discriminate|]). destruct w; [|discriminate]. vm_compute. reflexivity.
Qed.

(* Finding: from a partitioning without any index, a switch with a reduction ends the program
   (there is no old mapping) *)
Theorem C66_nothing_before_refuted : exists qb sp fl tl f t,
  Good1d sp 1 fl tl /\ Sees sp 1 0 fl tl f t /\ c_qsort rb_cmp qb /\
  (forall i, ~ Owns fl 0 i) /\ (forall i, Owns tl 0 i <-> 0 <= i0 i < 5) /\
  forall w, switch_backend qb sp f t RO_Sum [] [Some w] = Abort.
Proof.
  exists ex_qb, (exsp 20), ex1_none, ex1_05, (ex_np 1 20 1 0 ex1_none), (ex_np 2 20 1 0 ex1_05).
  split; [apply ex1_good; try reflexivity; [exact ex1_none_frozen|exact ex1_05_frozen]|]. split; [apply ex1_sees|]. split; [exact ex_qb_ok|].
  split; [|split].
  - intros i O. apply (owns_iff_trs _ _ _ ex1_none_frozen) in O. destruct O as [x [[] _]].
  - intros i. rewrite (owns_iff_trs _ _ _ ex1_05_frozen). split.
    + intros [x [[<-|[]] [_ [H _]]]]. simpl in H. lia.
    + intros H. eexists. split; [left; reflexivity|]. split; [reflexivity|]. split; [simpl; lia|]. split; simpl; lia.
  - intros w. vm_compute. reflexivity.
Qed.

(* the hypotheses of C66_missing: see C66_misplaced_refuted for the same partitionings *)
Example C66_missing_case : Good1d (exsp 20) 1 ex1_25 ex1_05 /\ Sees (exsp 20) 1 0 ex1_25 ex1_05 (ex_np 1 20 1 0 ex1_25) (ex_np 2 20 1 0 ex1_05) /\
  ~ NothingNew ex1_25 ex1_05 /\ switch_backend ex_qb (exsp 20) (ex_np 1 20 1 0 ex1_25) (ex_np 2 20 1 0 ex1_05) RO_None [Some [72; 73; 74]] [Some [0; 0; 0; 0; 0]] = Abort.
Proof.
  split; [apply ex1_good; try reflexivity; [exact ex1_25_frozen|exact ex1_05_frozen]|]. split; [apply ex1_sees|]. split; [|vm_compute; reflexivity].
  intros N. assert (O : Owns ex1_05 0 (mkIdx 0 0 0)).
  { apply (owns_iff_trs _ _ _ ex1_05_frozen). eexists. split; [left; reflexivity|]. split; [reflexivity|]. split; [simpl; lia|split; simpl; lia]. }
  apply N, (owns_iff_trs _ _ _ ex1_25_frozen) in O. destruct O as [x [[<-|[]] [_ [H _]]]]. simpl in H. lia.
Qed.

(* one process, 4x4 indexes: two halves; all *)
Definition ex1_run2 (cs : list acall) : rlist :=
  match run_partitioner exq (fixed cs false) (mkParams (exsp2 4 4) (exgroup 1 0) None) None with Ok l => l | _ => rl_new (exsp 0) 0 end.
Definition ex1_np2 (name : Z) (l : rlist) : npart := mkNp name (mkPartg (exsp2 4 4) (exgroup 1 0) [(RIfull, l)]).
Definition ex1_half : rlist := Eval vm_compute in ex1_run2 [ACrange 0 (exrng2 0 0 2 4) 0; ACrange 0 (exrng2 2 0 4 4) 0].
Definition ex1_all2 : rlist := Eval vm_compute in ex1_run2 [ACrange 0 (exrng2 0 0 4 4) 0].
Lemma ex1_run2_frozen cs l : run_partitioner exq (fixed cs false) (mkParams (exsp2 4 4) (exgroup 1 0) None) None = Ok l -> FrozenList l.
Proof. intros R. refine (run_frozen _ _ _ _ _ exq_good _ _ R); [right; left; reflexivity|simpl; lia]. Qed.
Lemma ex1_half_frozen : FrozenList ex1_half.
Proof. apply (ex1_run2_frozen [ACrange 0 (exrng2 0 0 2 4) 0; ACrange 0 (exrng2 2 0 4 4) 0]). vm_compute. reflexivity. Qed.
Lemma ex1_all2_frozen : FrozenList ex1_all2.
Proof. apply (ex1_run2_frozen [ACrange 0 (exrng2 0 0 4 4) 0]). vm_compute. reflexivity. Qed.
Example C66_nd_case : exists o, GoodNd (exsp2 4 4) 1 ex1_half ex1_all2 /\ NoEmpty ex1_half /\ NoEmpty ex1_all2 /\
  SeesAll (exsp2 4 4) 1 0 ex1_half ex1_all2 (ex1_np2 1 ex1_half) (ex1_np2 2 ex1_all2) /\
  calc_transition ex_qb (exsp2 4 4) (Some (ex1_np2 1 ex1_half)) (Some (ex1_np2 2 ex1_all2)) DF_Preserve RO_None =
    Ok (Some (mkTrans (exsp2 4 4) (exgroup 1 0) DF_Preserve RO_None o)) /\ length (tp_local o) = 2%nat.
Proof.
  eexists. split; [constructor; try reflexivity; [exact ex1_half_frozen|exact ex1_all2_frozen|left; reflexivity]|].
  split; [apply noempty_check; [exact ex1_half_frozen|reflexivity]|]. split; [apply noempty_check; [exact ex1_all2_frozen|reflexivity]|].
  split; [constructor; simpl; auto; lia|]. vmsplit.
Qed.
(* from All to All: the transition can be calculated, the backend ends the program *)
Example C66_reduction_nd_case : exists tr, GoodNd (exsp2 4 4) 1 ex1_all2 ex1_all2 /\ NoEmpty ex1_all2 /\
  SeesAll (exsp2 4 4) 1 0 ex1_all2 ex1_all2 (ex1_np2 1 ex1_all2) (ex1_np2 2 ex1_all2) /\
  calc_transition ex_qb (exsp2 4 4) (Some (ex1_np2 1 ex1_all2)) (Some (ex1_np2 2 ex1_all2)) DF_Preserve RO_Sum = Ok (Some tr).
Proof.
  eexists. split; [constructor; try reflexivity; [exact ex1_all2_frozen|exact ex1_all2_frozen|left; reflexivity]|].
  split; [apply noempty_check; [exact ex1_all2_frozen|reflexivity]|].
  split; [constructor; simpl; auto; lia|]. vmsplit.
Qed.

Print Assumptions C66_local.
Print Assumptions C66_backend_idle.
Print Assumptions C66_covering.
Print Assumptions C66_missing.
Print Assumptions C66_messages.
Print Assumptions C66_local_nd.
Print Assumptions C66_no_data.
Print Assumptions C66_no_data_case.
Print Assumptions C66_reduction_nd_refuted.
Print Assumptions C66_case.
Print Assumptions C66_covering_case.
Print Assumptions C66_misplaced_refuted.
Print Assumptions C66_outside_refuted.
Print Assumptions C66_nothing_before_refuted.
Print Assumptions C66_missing_case.
Print Assumptions C66_nd_case.
Print Assumptions C66_reduction_nd_case.
