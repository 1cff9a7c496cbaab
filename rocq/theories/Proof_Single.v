(* Proofs for switches of programs with one process *)
From Coq Require Import ZArith List Bool Lia ZifyBool ZifyNat.
From Verif Require Import Base ListFacts Model_Space Spec_Space Proof_Space Model_RangeList Spec_RangeList Proof_RangeList
  Model_Partitioner Spec_Partitioner Proof_Partitioner Proof_Partitioner2 Proof_Partitioner3 Prop_Partitioner Model_Group Proof_Group Model_Transition Spec_Transition
  Proof_Trans1 Proof_Trans2 Proof_Trans3 Proof_Trans4 Proof_Trans5 Proof_Trans6 Proof_Trans7 Proof_Trans8 Prop_Transition Proof_RangeList4 Proof_RangeList5 Model_Single Spec_Single.
Import ListNotations.
Open Scope Z_scope.

Lemma owns_one l t i : FrozenList l -> rl_tids l = 1 -> Owns l t i -> t = 0.
Proof.
  intros F H [n [x [Hx _]]]. destruct (frozen_range_in _ _ _ _ F Hx) as [H1 H2]. destruct (FrozenList_Frozen _ F) as [Fz _].
  pose proof (fz_tasks _ Fz) as Q. rewrite Forall_forall in Q. specialize (Q x H1). lia.
Qed.
Lemma only_one l i : FrozenList l -> rl_tids l = 1 -> Owns l 0 i -> OnlyOwner l 0 i.
Proof. intros F H O t. split; [apply owns_one; auto|intros ->; auto]. Qed.
Lemma unique_one l : FrozenList l -> rl_tids l = 1 -> Unique l.
Proof. intros F H t u i A B. rewrite (owns_one l t i F H A). symmetry. exact (owns_one l u i F H B). Qed.

Lemma filter_pos {A} (p : A -> bool) l x : In x l -> p x = true -> length (filter p l) <> 0%nat.
Proof. intros H P. assert (In x (filter p l)) by (apply filter_In; auto). destruct (filter p l); [contradiction|discriminate]. Qed.

(* the first index of a box *)
Lemma inb_first b : i0 (b_from b) < i0 (b_to b) -> inb (b_from b) b = true.
Proof. unfold inb. lia. Qed.

Section One.
  Variables (sp : space) (fl tl : rlist).
  Hypothesis G : Good1d sp 1 fl tl.

  Lemma one_quiet red o : (forall i, TransAt 1 0 red fl tl o i) -> MapsOk 0 fl tl o -> tp_send o = [] /\ tp_recv o = [].
  Proof.
    intros T M. pose proof (mo_nonempty _ _ _ _ M) as N. split.
    - destruct (tp_send o) as [|x r] eqn:E; auto. exfalso.
      assert (B : i0 (b_from (sd_box x)) < i0 (b_to (sd_box x))) by (apply N; rewrite in_app_iff; right; rewrite in_app_iff; left; simpl; auto).
      destruct (T (b_from (sd_box x))) as [_ TS _ _ _]. destruct (TS (sd_to x)) as [_ T2].
      assert (P : nsend o (sd_to x) (b_from (sd_box x)) <> 0%nat).
      { unfold nsend. apply (filter_pos _ _ x); [rewrite E; left; auto|]. rewrite inb_first; auto. simpl. lia. }
      apply P, T2. intros [_ [O Q]]. apply Q. exact (owns_one tl _ _ (gd_tl _ _ _ _ G) (gd_tltids _ _ _ _ G) O).
    - destruct (tp_recv o) as [|x r] eqn:E; auto. exfalso.
      assert (B : i0 (b_from (rc_box x)) < i0 (b_to (rc_box x))).
      { apply N. rewrite !in_app_iff. right. right. left. simpl. auto. }
      destruct (T (b_from (rc_box x))) as [_ _ TR _ _]. destruct (TR (rc_from x)) as [_ T2].
      assert (P : nrecv o (rc_from x) (b_from (rc_box x)) <> 0%nat).
      { unfold nrecv. apply (filter_pos _ _ x); [rewrite E; left; auto|]. rewrite inb_first; auto. simpl. lia. }
      apply P, T2. intros [O [Q _]]. apply Q. apply (owns_one fl (rc_from x) (b_from (rc_box x)) (gd_fl _ _ _ _ G) (gd_fltids _ _ _ _ G)). apply O. auto.
  Qed.

  (* reductions are only calculated for indexes the process did not own before *)
  Lemma one_red red o i x : (forall i, TransAt 1 0 red fl tl o i) -> In x (tp_red o) -> inb i (rd_box x) = true ->
    Owns tl 0 i /\ ~ Owns fl 0 i.
  Proof.
    intros T Hx Hi. destruct (T i) as [_ _ _ [_ T2] _].
    assert (P : nred o i <> 0%nat) by (unfold nred; apply (filter_pos _ _ x); auto).
    assert (N : ~ Owns fl 0 i).
    { intros O. apply P, T2. intros [Q _]. apply (Q 0). apply only_one; auto; apply G. }
    split; auto. destruct (existsb (fun t => 0 =? t) (owners 1 (rl_trs tl) (i0 i))) eqn:E.
    - pose proof G as G'. apply existsb_exists in E. destruct E as [t [E1 E2]]. assert (t = 0) by lia. subst t.
      pose proof (g_own_owns _ _ _ _ G false 0 i) as Q. apply Q. exact E1.
    - exfalso. apply P, T2. intros [_ [O|O]]; [contradiction|].
      pose proof (g_own_owns _ _ _ _ G false 0 i) as Q. apply Q in O.
      assert (existsb (fun t => 0 =? t) (owners 1 (rl_trs tl) (i0 i)) = true) by (apply existsb_exists; exists 0; split; auto). congruence.
  Qed.

  Lemma one_local red o i : (forall i, TransAt 1 0 red fl tl o i) -> OneIf (nlocal o i) (Owns fl 0 i /\ Owns tl 0 i).
  Proof.
    intros T. destruct (T i) as [[A B] _ _ _ _]. split.
    - intros [O1 O2]. apply A. split; auto. apply only_one; auto; apply G.
    - intros N. apply B. intros [O1 O2]. apply N. split; auto. apply O1. auto.
  Qed.
End One.

Lemma silent_part tr from to : Silent (tr_ops tr) -> backend_part tr from to = Ok to.
Proof. intros [A B C _]. unfold backend_part, needs_backend. rewrite A, B, C. reflexivity. Qed.

Section OneNd.
  Variables (sp : space) (fl tl : rlist).
  Hypothesis G : GoodNd sp 1 fl tl.

  Lemma others_one : filter (fun t => negb (t =? 0)) (zcount 1) = [].
  Proof. reflexivity. Qed.
  Lemma nd_one_quiet o : nd_preserve 1 0 RO_None sp fl tl tops_empty = Ok o -> tp_send o = [] /\ tp_recv o = [] /\ tp_red o = [] /\ tp_init o = [].
  Proof.
    unfold nd_preserve. destruct (task_ranges fl 0) as [a| | | |]; try discriminate. destruct (task_ranges tl 0) as [b| | | |]; try discriminate.
    cbn [obind is_reduction]. rewrite others_one. cbn [ofold obind]. intros H. injection H as <-.
    destruct (nd_local_ok (sp_dims sp) a b tops_empty) as [_ L]. unfold same_but_local in L. simpl in L. intuition congruence.
  Qed.
End OneNd.

Lemma nd_red_abort tr from to : sp_dims (tr_space tr) <> 1%nat -> tp_red (tr_ops tr) <> [] -> backend_part tr from to = Abort.
Proof.
  intros D R. unfold backend_part, needs_backend. destruct (tp_red (tr_ops tr)) as [|x r] eqn:E; [congruence|].
  replace (negb (Nat.eqb (length (tp_send (tr_ops tr)) + length (tp_recv (tr_ops tr)) + length (x :: r)) 0)) with true by (simpl length; lia).
  unfold single_exec. rewrite E. destruct from as [|s [|? ?]]; auto. destruct to as [|w [|? ?]]; auto.
  cbn [ofold]. unfold single_red at 1. replace (Nat.eqb (sp_dims (tr_space tr)) 1) with false by (symmetry; apply Nat.eqb_neq; auto). reflexivity.
Qed.

(* initialisation adds nothing else *)
Lemma init_ops_quiet dims red l : forall o o', init_ops dims red l o = Ok o' ->
  tp_local o' = tp_local o /\ tp_send o' = tp_send o /\ tp_recv o' = tp_recv o /\ tp_red o' = tp_red o.
Proof.
  unfold init_ops. induction l as [|x l IH]; intros o o' H; cbn [ofold] in H.
  - injection H as <-. auto.
  - destruct (box_isEmpty dims (t_box (snd x))); cbn [obind] in H; [apply IH; auto|].
    destruct (is_reduction red); cbn [cassert obind] in H; [|discriminate]. apply IH in H. exact H.
Qed.
Lemma other_flows qb sp f t flow red tr : calc_transition qb sp f t flow red = Ok (Some tr) -> flow <> DF_Preserve \/ f = None \/ t = None ->
  tp_local (tr_ops tr) = [] /\ tp_send (tr_ops tr) = [] /\ tp_recv (tr_ops tr) = [] /\ tp_red (tr_ops tr) = [].
Proof.
  intros H K. assert (D : do_calc_transition qb sp f t flow red = Ok (Some tr)).
  { unfold calc_transition in H. destruct f, t; auto. apply cassert_ok in H. tauto. }
  clear H. unfold do_calc_transition in D. destruct (trans_group sp f t flow) as [g| | | |]; try discriminate. cbn [obind] in D.
  destruct (g_myid g =? -1); [discriminate|].
  set (o1 := match t, flow with Some t, DF_Init => _ | _, _ => _ end) in D.
  assert (O : forall o, o1 = Ok o -> tp_local o = [] /\ tp_send o = [] /\ tp_recv o = [] /\ tp_red o = []).
  { intros o E. unfold o1 in E. destruct t as [t|]; [destruct flow|]; try (injection E as <-; auto; fail).
    destruct (pa_my (np_p t)); [|discriminate]. destruct (task_ranges r (g_myid g)); try discriminate. cbn [obind] in E.
    apply init_ops_quiet in E. exact E. }
  destruct o1 as [o| | | |]; try discriminate. cbn [obind] in D. specialize (O o eq_refl).
  assert (D' : Ok (Some (mkTrans sp g flow red o)) = Ok (Some tr)).
  { destruct f as [f|], t as [t|], flow; auto; exfalso; intuition congruence. }
  injection D' as <-. exact O.
Qed.
