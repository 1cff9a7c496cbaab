(* Transitions: reductions in 2d and 3d, initialisation, filtered lists; checks for examples *)
From Coq Require Import ZArith List Bool Lia Permutation Sorted ZifyBool ZifyNat.
From Verif Require Import Base ListFacts Model_Space Spec_Space Proof_Space Model_RangeList Spec_RangeList Proof_RangeList Proof_RangeList3 Proof_RangeList4 Proof_RangeList5
  Model_Partitioner Spec_Partitioner Proof_Partitioner Proof_Partitioner2 Proof_Partitioner3 Model_Group Proof_Group Proof_Migrate Proof_Group3 Model_Transition Spec_Transition
  Proof_Trans1 Proof_Trans2 Proof_Trans3 Proof_Trans4 Proof_Trans5 Proof_Trans6 Proof_Trans7.
Import ListNotations.
Open Scope Z_scope.

(* ---------- reductions in 2d and 3d ---------- *)

Lemma ofold_id {S X} (f : S -> X -> outcome S) l : forall s, (forall x, In x l -> f s x = Ok s) -> ofold f l s = Ok s.
Proof. induction l as [|x l IH]; intros s H; simpl; auto. rewrite H by (left; auto). simpl. apply IH. intros; apply H; right; auto. Qed.

Lemma fold_id {S X} (f : S -> X -> S) l : forall s, (forall x, In x l -> f s x = s) -> fold_left f l s = s.
Proof. induction l as [|x l IH]; intros s H; simpl; auto. rewrite H by (left; auto). apply IH. intros; apply H; right; auto. Qed.

Lemma isSingle_val l : FrozenList l -> exists q, rl_isSingle l = Ok q /\ (0 <= q < rl_tids l \/ q = -1).
Proof.
  intros F. destruct (FrozenList_Frozen _ F) as [Fr _]. pose proof (fz_count _ Fr) as Hc. pose proof (fz_tasks _ Fr) as Tk.
  unfold rl_isSingle. destruct (rl_count l =? 1) eqn:E; cbn [negb]; [|eauto]. destruct (rl_trs l) as [|x [|? ?]]; simpl in Hc; try lia.
  change (aread [x] 0) with (Ok x). cbn [obind]. destruct (negb _); [eauto|]. inversion Tk; subst. exists (t_task x). auto.
Qed.

Section Red.
  Variables (sp : space) (gsize : Z) (fl tl : rlist).
  Hypothesis G : GoodNd sp gsize fl tl.
  Hypothesis NeF : NoEmpty fl.

  Lemma isAll_equal p q x : rl_isAll fl = true -> 0 <= p < gsize -> 0 <= q < gsize -> In x (numbered (mine p (rl_trs fl))) ->
    has_equal (sp_dims sp) (t_box (snd x)) (numbered (mine q (rl_trs fl))) = true.
  Proof.
    intros A Hp Hq Hx. pose proof (dok _ _ _ _ G) as D. destruct x as [k x]. destruct (inF _ _ _ _ G NeF _ _ _ Hp Hx) as [_ [Nx _]].
    assert (Fz : FrozenList fl) by apply G. assert (E1 : rl_space fl = sp) by apply G. assert (E2 : rl_tids fl = gsize) by apply G.
    destruct (FrozenList_Frozen _ Fz) as [Fr _]. pose proof (fz_count _ Fr) as Hc.
    unfold rl_isAll in A. destruct (rl_count fl =? rl_tids fl) eqn:E; simpl in A; [|discriminate]. rewrite E1 in A.
    destruct (nth_error (rl_trs fl) (Z.to_nat q)) as [y|] eqn:En; [|apply nth_error_None in En; lia].
    destruct (isAll_loop_spec _ _ D _ _ A _ _ En) as [K1 K2].
    assert (Hy : In y (mine q (rl_trs fl))) by (apply filter_In; split; [eapply nth_error_In; eauto|lia]).
    apply numbered_in in Hx. destruct Hx as [_ Hx]. apply nth_error_In in Hx. apply filter_In in Hx. destruct Hx as [Hx Tx].
    apply In_nth_error in Hx. destruct Hx as [n Hn]. destruct (isAll_loop_spec _ _ D _ _ A _ _ Hn) as [J1 J2].
    unfold has_equal. apply existsb_exists. apply In_nth_error in Hy. destruct Hy as [m Hm]. exists (Z.of_nat m, y). split.
    - apply numbered_in. rewrite Nat2Z.id. split; [lia|auto].
    - simpl. apply box_isEqual_complete; auto. intros i. rewrite (J2 i), (K2 i). reflexivity.
  Qed.

  Lemma nd_reduce me red : 0 <= me < gsize -> is_reduction red = true ->
    (exists o outs, nd_preserve gsize me red sp fl tl tops_empty = Ok o /\ rl_isAll fl = true /\
       ((exists q, rl_isSingle tl = Ok q /\ 0 <= q /\ outs = [q]) \/ (rl_isSingle tl = Ok (-1) /\ rl_isAll tl = true /\ outs = zcount gsize)) /\
       reductions gsize o = [(sp_box sp, red, Some (zcount gsize), Some outs)] /\ tp_send o = [] /\ tp_recv o = [] /\ tp_init o = [] /\
       tp_local o = locals (sp_dims sp) (numbered (mine me (rl_trs fl))) (numbered (mine me (rl_trs tl)))) \/
    (nd_preserve gsize me red sp fl tl tops_empty = Abort /\
       ~ (rl_isAll fl = true /\ ((exists q, rl_isSingle tl = Ok q /\ 0 <= q) \/ rl_isAll tl = true))).
  Proof.
    intros Hme R. unfold nd_preserve. rewrite (trF _ _ _ _ G), (trT _ _ _ _ G) by auto. cbn [obind]. rewrite R.
    destruct (nd_local_ok (sp_dims sp) (numbered (mine me (rl_trs fl))) (numbered (mine me (rl_trs tl))) tops_empty) as [L1 [L2 [L3 [L4 [L5 L6]]]]].
    set (o1 := nd_local _ _ _ _) in *. simpl in L1, L2, L3, L4, L5, L6.
    unfold nd_red. destruct (rl_isAll fl) eqn:A; [|right; split; [reflexivity|intros [? _]; discriminate]].
    assert (FzT : FrozenList tl) by apply G. destruct (FrozenList_Frozen _ FzT) as [Fr _]. pose proof (fz_count _ Fr) as Hc. pose proof (fz_tasks _ Fr) as Tk.
    assert (Et : rl_tids tl = gsize) by apply G.
    assert (Q : exists q, rl_isSingle tl = Ok q /\ (0 <= q < gsize \/ q = -1)).
    { rewrite <- Et. apply isSingle_val; auto. }
    destruct Q as [q [Q1 Q2]]. rewrite Q1. cbn [obind].
    assert (SK : forall o t, In t (others gsize me) -> (do tfrom <- task_ranges fl t; do tto <- task_ranges tl t;
        Ok (nd_send (sp_dims sp) t (numbered (mine me (rl_trs fl))) tfrom tto o)) = Ok o).
    { intros o t Ht. apply others_in in Ht. destruct Ht as [Ht _]. rewrite (trF _ _ _ _ G), (trT _ _ _ _ G) by auto. cbn [obind]. f_equal.
      unfold nd_send. apply fold_id. intros x Hx. rewrite (isAll_equal me t); auto. }
    assert (DONE : forall o' og outs, same_but_local tops_empty (set_groups o' []) -> members gsize o' og = Some outs -> tp_local o' = tp_local o1 ->
       ((exists q0, Ok q = Ok q0 /\ 0 <= q0 /\ outs = [q0]) \/ (Ok q = Ok (-1) /\ rl_isAll tl = true /\ outs = zcount gsize)) ->
       exists o outs, ofold (fun o t => do tfrom <- task_ranges fl t; do tto <- task_ranges tl t;
           Ok (nd_send (sp_dims sp) t (numbered (mine me (rl_trs fl))) tfrom tto o)) (others gsize me)
             (add_red o' (mkRedT (sp_box sp) red (-1) og 0 0 0 0)) = Ok o /\ true = true /\
       ((exists q0, Ok q = Ok q0 /\ 0 <= q0 /\ outs = [q0]) \/ (Ok q = Ok (-1) /\ rl_isAll tl = true /\ outs = zcount gsize)) /\
       reductions gsize o = [(sp_box sp, red, Some (zcount gsize), Some outs)] /\ tp_send o = [] /\ tp_recv o = [] /\ tp_init o = [] /\
       tp_local o = locals (sp_dims sp) (numbered (mine me (rl_trs fl))) (numbered (mine me (rl_trs tl)))).
    { intros o' og outs [S1 [S2 [S3 [S4 S5]]]] M Ll Out. simpl in S1, S2, S3, S4. exists (add_red o' (mkRedT (sp_box sp) red (-1) og 0 0 0 0)), outs.
      split; [apply ofold_id; intros; apply SK; auto|]. split; auto. split; auto. unfold reductions, add_red; simpl. rewrite <- S4. simpl.
      split; [|split; [auto|split; [auto|split; [auto|rewrite Ll; auto]]]]. unfold members in *. simpl in *. rewrite M. reflexivity. }
    destruct (q <? 0) eqn:E0.
    - assert (q = -1) by lia. subst q. destruct (rl_isAll tl) eqn:AT; cbn [obind].
      + left. apply (DONE o1 (-1) (zcount gsize)); auto. repeat split; simpl; auto.
      + right. split; [reflexivity|]. intros [_ [[q [X Y]]|X]]; [injection X as X; lia|discriminate].
    - left. destruct (getTaskGroup_ok (tp_groups o1) [q]) as [k [gx [K1 [K2 K3]]]]. rewrite K1. cbn [fst snd].
      assert (Out : (exists q0, Ok q = Ok q0 /\ 0 <= q0 /\ [q] = [q0]) \/ (Ok q = Ok (-1) /\ rl_isAll tl = true /\ [q] = zcount gsize))
        by (left; exists q; split; [auto|split; [lia|auto]]).
      destruct (gsize =? 1) eqn:E1.
      + assert (q = 0) by lia. subst q. cbn [Z.eqb cassert obind]. apply (DONE _ (-1) [0]); auto.
        * repeat split; simpl; auto.
        * unfold members. simpl. replace gsize with 1 by lia. reflexivity.
      + cbn [obind]. apply (DONE _ k [q]); auto.
        * repeat split; simpl; auto.
        * unfold members. simpl. destruct (k =? -1) eqn:Ek; [lia|]. destruct (k <? 0) eqn:Ek2; [lia|]. auto.
  Qed.
End Red.

(* ---------- initialisation ---------- *)

Lemma init_trans qb sp (f : option npart) t l red : let g := pa_group (np_p t) in let me := g_myid g in
  space_eq (pa_space (np_p t)) sp = true ->
  (forall f', f = Some f' -> space_eq (pa_space (np_p f')) sp = true /\ pa_group (np_p f') = g) ->
  pa_my (np_p t) = Some l -> FrozenList l -> rl_space l = sp -> 0 <= me < rl_tids l ->
  (exists o, calc_transition qb sp f (Some t) DF_Init red = Ok (Some (mkTrans sp g DF_Init red o)) /\
     (is_reduction red = true \/ forall i, ~ Owns l me i) /\
     tp_local o = [] /\ tp_send o = [] /\ tp_recv o = [] /\ tp_red o = [] /\
     (forall i, Owns l me i <-> exists x, In x (tp_init o) /\ InBox (sp_dims sp) i (it_box x)) /\
     (forall x, In x (tp_init o) -> it_redOp x = red /\ NonEmpty (sp_dims sp) (it_box x) /\
        exists y, rl_tidrange l me (it_rangeNo x) = Ok (Some y) /\ t_box y = it_box x /\ t_mapNo y = it_mapNo x)) \/
  (calc_transition qb sp f (Some t) DF_Init red = Abort /\ is_reduction red = false /\ exists i, Owns l me i).
Proof.
  intros g me H1 H2 H3 H4 H5 H6.
  assert (U : calc_transition qb sp f (Some t) DF_Init red =
    (do o <- init_ops (sp_dims sp) red (numbered (mine me (rl_trs l))) tops_empty; Ok (Some (mkTrans sp g DF_Init red o)))).
  { unfold calc_transition, do_calc_transition. assert (E : (me =? -1) = false) by lia.
    destruct f as [f|].
    - destruct (H2 f eq_refl) as [J1 J2]. rewrite J2. fold g. rewrite Z.eqb_refl. cbn [cassert trans_group]. rewrite J1, J2, H1. fold g. rewrite Z.eqb_refl. cbn [cassert obind].
      fold me. rewrite E, H3, task_ranges_ok by auto. cbn [obind]. destruct (init_ops _ _ _ _); reflexivity.
    - cbn [trans_group]. rewrite H1. cbn [cassert obind]. fold g me. rewrite E, H3, task_ranges_ok by auto. cbn [obind]. destruct (init_ops _ _ _ _); reflexivity. }
  rewrite U. pose proof (init_ops_ok (sp_dims sp) red (numbered (mine me (rl_trs l))) tops_empty) as I.
  destruct (init_ops (sp_dims sp) red (numbered (mine me (rl_trs l))) tops_empty) as [o| | | |]; try (destruct I; fail); cbn [obind].
  - left. exists o. destruct I as [I1 [I2 [I3 [I4 [I5 I6]]]]]. simpl in *. split; auto. conjs; auto.
    + destruct I1 as [I1|I1]; auto. right. intros i Hi. apply owns_num in Hi; auto. destruct Hi as [y [Y1 Y2]]. rewrite forallb_forall in I1. specialize (I1 y Y1).
      apply box_isEmpty_true in I1. apply I1. exists i. rewrite H5 in Y2. exact Y2.
    + intros i. rewrite I2, owns_num, H5 by auto. split.
      * intros [y [Y1 Y2]]. exists (init_of red y). split; [|exact Y2]. apply in_map. apply filter_In. split; auto.
        assert (E : box_isEmpty (sp_dims sp) (t_box (snd y)) = false) by (apply box_isEmpty_spec; exists i; auto). rewrite E. auto.
      * intros [x [X1 X2]]. apply in_map_iff in X1. destruct X1 as [y [<- Y]]. apply filter_In in Y. exists y. tauto.
    + rewrite I2. intros x X. apply in_map_iff in X. destruct X as [[k y] [<- Y]]. apply filter_In in Y. destruct Y as [Y1 Y2]. simpl in *. split; auto. split.
      * apply box_isEmpty_spec. destruct (box_isEmpty _ _); auto; discriminate.
      * exists y. split; auto. apply numbered_range; auto.
  - right. destruct I as [I1 I2]. split; auto. split; auto.
    assert (X : existsb (fun x => negb (box_isEmpty (sp_dims sp) (t_box (snd x)))) (numbered (mine me (rl_trs l))) = true).
    { revert I2. clear. induction (numbered (mine me (rl_trs l))) as [|x r IH]; simpl; [discriminate|]. destruct (box_isEmpty _ _); simpl; auto. }
    apply existsb_exists in X. destruct X as [y [Y1 Y2]]. assert (E : box_isEmpty (sp_dims sp) (t_box (snd y)) = false) by (destruct (box_isEmpty _ _); auto; discriminate).
    apply box_isEmpty_spec in E. destruct E as [i Hi]. exists i. apply owns_num; auto. exists y. rewrite H5. auto.
Qed.

(* ---------- filtered lists ---------- *)

Section Filt.
  Variables (sp : space) (gsize me : Z) (fl tl fl' tl' : rlist).
  Hypothesis G : Good1d sp gsize fl tl.
  Hypothesis G' : Good1d sp gsize fl' tl'.
  Hypothesis SubF : forall t b g, HasRange fl' t b g -> HasRange fl t b g.
  Hypothesis SubT : forall t b g, HasRange tl' t b g -> HasRange tl t b g.
  Hypothesis KeepF : forall t b g, HasRange fl t b g -> (exists i, (Owns fl me i \/ Owns tl me i) /\ InBox 1 i b) -> HasRange fl' t b g.
  Hypothesis KeepT : forall t b g, HasRange tl t b g -> (exists i, (Owns fl me i \/ Owns tl me i) /\ InBox 1 i b) -> HasRange tl' t b g.

  Lemma filt_sub inp a : In a (if inp : bool then rl_trs fl' else rl_trs tl') -> exists b, In b (if inp then rl_trs fl else rl_trs tl) /\ same a b.
  Proof.
    destruct G as [A1 A2 A3 A4 A5 A6 A7 A8 A9 A10 A11 A12 A13]. destruct G' as [B1 B2 B3 B4 B5 B6 B7 B8 B9 B10 B11 B12 B13].
    intros Ha. destruct inp.
    - assert (H : HasRange fl' (t_task a) (t_box a) (t_tag a)) by (apply hasrange_in; [apply FrozenList_Frozen; auto|eauto]).
      apply SubF in H. apply hasrange_in in H; [|apply FrozenList_Frozen; auto]. destruct H as [b [C1 [C2 [C3 C4]]]].
      exists b. split; auto. unfold same, tf, tt. rewrite C3. auto.
    - assert (H : HasRange tl' (t_task a) (t_box a) (t_tag a)) by (apply hasrange_in; [apply FrozenList_Frozen; auto|eauto]).
      apply SubT in H. apply hasrange_in in H; [|apply FrozenList_Frozen; auto]. destruct H as [b [C1 [C2 [C3 C4]]]].
      exists b. split; auto. unfold same, tf, tt. rewrite C3. auto.
  Qed.
  Lemma filt_keep0 inp a i : In a (if inp : bool then rl_trs fl else rl_trs tl) -> InBox 1 i (t_box a) -> Owns fl me i \/ Owns tl me i ->
    exists b, In b (if inp then rl_trs fl' else rl_trs tl') /\ same a b.
  Proof.
    destruct G as [A1 A2 A3 A4 A5 A6 A7 A8 A9 A10 A11 A12 A13]. destruct G' as [B1 B2 B3 B4 B5 B6 B7 B8 B9 B10 B11 B12 B13].
    intros Ha Hi Ho. destruct inp.
    - assert (H : HasRange fl (t_task a) (t_box a) (t_tag a)) by (apply hasrange_in; [apply FrozenList_Frozen; auto|eauto]).
      apply KeepF in H; [|eauto]. apply hasrange_in in H; [|apply FrozenList_Frozen; auto]. destruct H as [b [C1 [C2 [C3 C4]]]].
      exists b. split; auto. unfold same, tf, tt. rewrite C3. auto.
    - assert (H : HasRange tl (t_task a) (t_box a) (t_tag a)) by (apply hasrange_in; [apply FrozenList_Frozen; auto|eauto]).
      apply KeepT in H; [|eauto]. apply hasrange_in in H; [|apply FrozenList_Frozen; auto]. destruct H as [b [C1 [C2 [C3 C4]]]].
      exists b. split; auto. unfold same, tf, tt. rewrite C3. auto.
  Qed.
  Lemma inbox1 i b : InBox 1 i b <-> i0 (b_from b) <= i0 i < i0 (b_to b).
  Proof. unfold InBox. simpl. lia. Qed.
  Lemma filt_keep inp a x : In a (if inp : bool then rl_trs fl else rl_trs tl) -> tf a <= x < tt a ->
    cov (rl_trs fl) me x = 1 \/ cov (rl_trs tl) me x = 1 -> exists b, In b (if inp then rl_trs fl' else rl_trs tl') /\ same a b.
  Proof.
    intros Ha Hx Hc. apply (filt_keep0 inp a (mkIdx x 0 0)); auto.
    - apply inbox1. exact Hx.
    - destruct Hc as [Hc|Hc]; [left; apply (g_owns _ _ _ _ G true)|right; apply (g_owns _ _ _ _ G false)]; exact Hc.
  Qed.
  Lemma filt_owns inp t i : Owns (if inp : bool then fl' else tl') t i -> Owns (if inp then fl else tl) t i.
  Proof.
    destruct G as [A1 A2 A3 A4 A5 A6 A7 A8 A9 A10 A11 A12 A13]. destruct G' as [B1 B2 B3 B4 B5 B6 B7 B8 B9 B10 B11 B12 B13].
    intros H. pose proof (filt_sub inp) as Q.
    assert (E : forall l, (l = fl \/ l = tl \/ l = fl' \/ l = tl') -> FrozenList l /\ sp_dims (rl_space l) = 1%nat) by (intros l [->|[->|[->| ->]]]; split; congruence).
    destruct inp.
    - apply owns_iff_trs in H; auto. destruct H as [x [X1 [X2 X3]]]. destruct (Q x X1) as [b [C1 [C2 [C3 C4]]]].
      apply owns_iff_trs; auto. exists b. split; auto. split; [congruence|]. rewrite (proj2 (E fl' ltac:(auto))), inbox1 in X3. rewrite (proj2 (E fl ltac:(auto))), inbox1.
      unfold tf, tt in *. lia.
    - apply owns_iff_trs in H; auto. destruct H as [x [X1 [X2 X3]]]. destruct (Q x X1) as [b [C1 [C2 [C3 C4]]]].
      apply owns_iff_trs; auto. exists b. split; auto. split; [congruence|]. rewrite (proj2 (E tl' ltac:(auto))), inbox1 in X3. rewrite (proj2 (E tl ltac:(auto))), inbox1.
      unfold tf, tt in *. lia.
  Qed.
  Lemma filt_owns2 inp t i : Owns fl me i \/ Owns tl me i -> (Owns (if inp : bool then fl' else tl') t i <-> Owns (if inp then fl else tl) t i).
  Proof.
    intros Ho. split; [apply filt_owns|]. pose proof (filt_keep0 inp) as Q.
    destruct G as [A1 A2 A3 A4 A5 A6 A7 A8 A9 A10 A11 A12 A13]. destruct G' as [B1 B2 B3 B4 B5 B6 B7 B8 B9 B10 B11 B12 B13].
    assert (E : forall l, (l = fl \/ l = tl \/ l = fl' \/ l = tl') -> FrozenList l /\ sp_dims (rl_space l) = 1%nat) by (intros l [->|[->|[->| ->]]]; split; congruence).
    intros H. destruct inp.
    - apply owns_iff_trs in H; auto. destruct H as [x [X1 [X2 X3]]]. rewrite (proj2 (E fl ltac:(auto))) in X3. destruct (Q x i X1 X3 Ho) as [b [C1 [C2 [C3 C4]]]].
      apply owns_iff_trs; auto. exists b. split; auto. split; [congruence|]. rewrite (proj2 (E fl' ltac:(auto))), inbox1. rewrite inbox1 in X3. unfold tf, tt in *. lia.
    - apply owns_iff_trs in H; auto. destruct H as [x [X1 [X2 X3]]]. rewrite (proj2 (E tl ltac:(auto))) in X3. destruct (Q x i X1 X3 Ho) as [b [C1 [C2 [C3 C4]]]].
      apply owns_iff_trs; auto. exists b. split; auto. split; [congruence|]. rewrite (proj2 (E tl' ltac:(auto))), inbox1. rewrite inbox1 in X3. unfold tf, tt in *. lia.
  Qed.
  Lemma filt_handled red i : Handled me red fl' tl' i <-> Handled me red fl tl i.
  Proof.
    assert (P : forall s, Owns fl me i \/ Owns tl me i -> (OnlyOwner fl' s i <-> OnlyOwner fl s i)).
    { intros s Ho. unfold OnlyOwner. split; intros H t; rewrite <- (H t); [symmetry|]; apply (filt_owns2 true t i Ho). }
    unfold Handled. split; intros H Ho.
    - destruct H as [H1 H2].
      + destruct Ho as [Ho|Ho]; [left; apply (filt_owns2 true)|right; apply (filt_owns2 false)]; auto.
      + split; [intros [s Hs]; apply H1; exists s; apply P; auto|intros Hs; apply H2; intros s X; apply (Hs s); apply P; auto].
    - assert (Ho' : Owns fl me i \/ Owns tl me i) by (destruct Ho as [Ho|Ho]; [left; apply (filt_owns true)|right; apply (filt_owns false)]; auto).
      destruct H as [H1 H2]; auto.
      split; [intros [s Hs]; apply H1; exists s; apply P; auto|intros Hs; apply H2; intros s X; apply (Hs s); apply P; auto].
  Qed.

  Lemma filt_trans qb qb' red f t f' t' : c_qsort rb_cmp qb -> c_qsort rb_cmp qb' ->
    Sees sp gsize me fl tl f t -> Sees sp gsize me fl' tl' f' t' ->
    (exists o o', calc_transition qb sp (Some f) (Some t) DF_Preserve red = Ok (Some (mkTrans sp (pa_group (np_p f)) DF_Preserve red o)) /\
       calc_transition qb' sp (Some f') (Some t') DF_Preserve red = Ok (Some (mkTrans sp (pa_group (np_p f')) DF_Preserve red o')) /\
       map lo_box (tp_local o') = map lo_box (tp_local o) /\
       map (fun x => (sd_box x, sd_to x)) (tp_send o') = map (fun x => (sd_box x, sd_to x)) (tp_send o) /\
       map (fun x => (rc_box x, rc_from x)) (tp_recv o') = map (fun x => (rc_box x, rc_from x)) (tp_recv o) /\
       reductions gsize o' = reductions gsize o) \/
    (calc_transition qb sp (Some f) (Some t) DF_Preserve red = Abort /\ calc_transition qb' sp (Some f') (Some t') DF_Preserve red = Abort).
  Proof.
    intros Q Q' S S'. destruct (trans_main qb sp gsize me fl tl f t red G S Q) as [[o [O1 [O2 O3]]]|[O1 O2]];
      destruct (trans_main qb' sp gsize me fl' tl' f' t' red G' S' Q') as [[o' [P1 [P2 P3]]]|[P1 P2]].
    - left. exists o, o'. split; auto. split; auto.
      destruct (g_sorted _ _ _ _ G qb Q) as [X1 X2]. destruct (g_sorted _ _ _ _ G' qb' Q') as [Y1 Y2].
      destruct (filtered_same sp gsize fl tl fl' tl' me G G' filt_sub filt_keep _ _ X1 X2 Y1 Y2 red o o' O3 P3) as [E1 [E2 [E3 E4]]]. auto.
    - exfalso. apply P2. intros i. apply filt_handled; auto.
    - exfalso. apply O2. intros i. apply filt_handled; auto.
    - right. auto.
  Qed.
End Filt.

(* ---------- group queries ---------- *)

Lemma group_queries gsize o k ts tr : tr_ops tr = o -> g_size (tr_group tr) = gsize -> 0 <= gsize -> members gsize o k = Some ts ->
  trans_groupCount tr k = Ok (Z.of_nat (length ts)) /\
  (forall i, 0 <= i < Z.of_nat (length ts) -> exists t, trans_taskInGroup tr k i = Ok t /\ nth_error ts (Z.to_nat i) = Some t) /\
  (forall t, 0 <= t < gsize -> exists b, trans_isInGroup tr k t = Ok b /\ (b = true <-> In t ts)).
Proof.
  intros <- <- Hg M. unfold members in M. unfold trans_groupCount, trans_taskInGroup, trans_isInGroup. destruct (k =? -1) eqn:E.
  - injection M as <-. pose proof (zcount_length (g_size (tr_group tr))) as L. split; [f_equal; lia|]. split.
    + intros i Hi. exists i. assert (X : (0 <=? i) && (i <? g_size (tr_group tr)) = true) by lia. rewrite X. split; auto.
      rewrite zcount_nth. destruct (Z.of_nat (Z.to_nat i) <? g_size (tr_group tr)) eqn:Y; [f_equal; lia|lia].
    + intros t Ht. exists true. split; auto. split; auto. intros _. apply zcount_In; lia.
  - destruct (k <? 0) eqn:E2; [discriminate|]. assert (Hk : (Z.to_nat k < length (tp_groups (tr_ops tr)))%nat) by (apply nth_error_Some; congruence).
    assert (X : (0 <=? k) && (k <? Z.of_nat (length (tp_groups (tr_ops tr)))) = true) by lia.
    assert (X' : (k <? Z.of_nat (length (tp_groups (tr_ops tr)))) = true) by lia.
    assert (R : aread (tp_groups (tr_ops tr)) k = Ok ts) by (unfold aread; rewrite E2, M; auto).
    rewrite X, X', R. cbn [cassert obind]. split; auto. split.
    + intros i Hi. assert (Y : (0 <=? i) && (i <? Z.of_nat (length ts)) = true) by lia. rewrite Y. cbn [cassert].
      destruct (nth_error ts (Z.to_nat i)) as [t|] eqn:N; [|apply nth_error_None in N; lia]. exists t. split; auto. unfold aread. rewrite N.
      destruct (i <? 0) eqn:Z; [lia|auto].
    + intros t Ht. eexists. split; [reflexivity|]. rewrite existsb_exists. split.
      * intros [y [Y1 Y2]]. assert (y = t) by lia. congruence.
      * intros H. exists t. split; auto. lia.
Qed.

(* ---------- checks for examples ---------- *)

Lemma isort_c_qsort {A} (cmp : A -> A -> Z) : c_qsort cmp (isort cmp).
Proof.
  intros l. unfold isort. induction l as [|x l IH]; simpl; [split; [constructor|intros; constructor]|].
  assert (IP : forall x l, Permutation (x :: l) (ins cmp x l)).
  { clear. intros x l. induction l as [|y l IH]; simpl; auto. destruct (cmp x y <=? 0); auto. rewrite perm_swap. constructor. exact IH. }
  destruct IH as [P S]. split; [rewrite <- IP; constructor; exact P|]. intros [C1 C2].
  assert (S' : StronglySorted (fun a b => cmp a b <= 0) (fold_right (ins cmp) [] l)).
  { apply S. split; [intros a b Ha Hb; apply C1; right; auto|intros a b c Ha Hb Hc; apply C2; right; auto]. }
  clear S. set (r := fold_right (ins cmp) [] l) in *. clearbody r.
  assert (K : forall r, (forall y, In y r -> In y l) -> StronglySorted (fun a b => cmp a b <= 0) r -> StronglySorted (fun a b => cmp a b <= 0) (ins cmp x r)).
  { clear r P S'. induction r as [|y r IH]; intros I S; simpl; [repeat constructor|]. inversion S as [|? ? S1 S2]; subst.
    assert (Iy : In y (x :: l)) by (right; apply I; left; auto). assert (Ix : In x (x :: l)) by (left; auto).
    destruct (cmp x y <=? 0) eqn:E.
    - constructor; auto. constructor; [lia|]. rewrite Forall_forall in *. intros z Hz. apply (C2 x y z); auto; [right; apply I; right; auto|lia].
    - constructor; [apply IH; auto; intros; apply I; right; auto|]. rewrite Forall_forall in *. intros z Hz.
      apply (Permutation_in _ (Permutation_sym (IP x r))) in Hz. destruct Hz as [<-|Hz]; [pose proof (C1 x y Ix Iy); lia|auto]. }
  apply K; auto. intros y Hy. eapply Permutation_in; [symmetry; exact P|exact Hy].
Qed.

Lemma noempty_check l : FrozenList l -> forallb (fun x => negb (box_isEmpty (sp_dims (rl_space l)) (t_box x))) (rl_trs l) = true -> NoEmpty l.
Proof.
  intros F H t n x Hx. destruct (frozen_range_in _ _ _ _ F Hx) as [H1 _]. rewrite forallb_forall in H. specialize (H x H1).
  apply box_isEmpty_spec. destruct (box_isEmpty _ _); auto; discriminate.
Qed.
Fixpoint pairs_disj (d : nat) (l : list trg) : bool :=
  match l with
  | [] => true
  | x :: r => forallb (fun y => match box_intersect d (t_box x) (t_box y) with None => true | _ => false end) r && pairs_disj d r
  end.
Lemma pairs_disj_ok d i l : pairs_disj d l = true -> forall n m x y, nth_error l n = Some x -> nth_error l m = Some y ->
  InBox d i (t_box x) -> InBox d i (t_box y) -> n = m.
Proof.
  induction l as [|a l IH]; intros H n m x y Hn Hm Hx Hy; [destruct n; discriminate|]. simpl in H. apply andb_true_iff in H. destruct H as [H1 H2].
  rewrite forallb_forall in H1.
  assert (K : forall b, In b l -> InBox d i (t_box a) -> InBox d i (t_box b) -> False).
  { intros b Hb I J. specialize (H1 b Hb). unfold box_intersect in H1. destruct (box_intersect_g zbox d (t_box a) (t_box b)) eqn:E; [discriminate|].
    eapply box_intersect_g_none; eauto. }
  destruct n, m; simpl in *; auto.
  - exfalso. injection Hn as ->. eapply K; eauto using nth_error_In.
  - exfalso. injection Hm as ->. eapply K; eauto using nth_error_In.
  - f_equal. eapply IH; eauto.
Qed.
Lemma owndisjoint_check l : FrozenList l -> forallb (fun t => pairs_disj (sp_dims (rl_space l)) (mine t (rl_trs l))) (zcount (rl_tids l)) = true -> OwnDisjoint l.
Proof.
  intros F H t n m x y i Hn Hm Hx Hy. destruct (FrozenList_Frozen _ F) as [Fr _]. rewrite forallb_forall in H.
  assert (Ht : 0 <= t < rl_tids l).
  { destruct (frozen_range_in _ _ _ _ F Hn) as [J1 J2]. pose proof (fz_tasks _ Fr) as Q. rewrite Forall_forall in Q. specialize (Q x J1). lia. }
  rewrite (frozen_tidrange _ Fr) in Hn, Hm by auto. destruct (n <? 0) eqn:E1; [discriminate|]. destruct (m <? 0) eqn:E2; [discriminate|].
  injection Hn as Hn. injection Hm as Hm. assert (Z.to_nat n = Z.to_nat m) by (eapply pairs_disj_ok; eauto; apply H; apply zcount_In; lia). lia.
Qed.
Lemma unique_check l : FrozenList l -> pairs_disj (sp_dims (rl_space l)) (rl_trs l) = true -> Unique l.
Proof.
  intros F H t u i Ht Hu. apply owns_iff_trs in Ht; auto. apply owns_iff_trs in Hu; auto. destruct Ht as [x [X1 [X2 X3]]]. destruct Hu as [y [Y1 [Y2 Y3]]].
  apply In_nth_error in X1. apply In_nth_error in Y1. destruct X1 as [n X1]. destruct Y1 as [m Y1].
  assert (n = m) by (eapply pairs_disj_ok; eauto). congruence.
Qed.

(* ---------- delivered exactly once ---------- *)

Lemma filter_len_le {A} (f g : A -> bool) l : (forall x, In x l -> f x = true -> g x = true) -> (length (filter f l) <= length (filter g l))%nat.
Proof.
  induction l as [|a l IH]; intros H; simpl; auto. assert (IH' := IH (fun x Hx => H x (or_intror Hx))).
  destruct (f a) eqn:E; [rewrite (H a (or_introl eq_refl) E); simpl; lia|]. destruct (g a); simpl; lia.
Qed.
Lemma filter_len_pos {A} (f : A -> bool) l x : In x l -> f x = true -> (0 < length (filter f l))%nat.
Proof. intros H1 H2. assert (H : In x (filter f l)) by (apply filter_In; auto). destruct (filter f l); [destruct H|simpl; lia]. Qed.
Lemma filter_len_ext {A} (f g : A -> bool) l : (forall x, In x l -> f x = g x) -> length (filter f l) = length (filter g l).
Proof. intros H. f_equal. apply filter_ext_in; auto. Qed.
Lemma filter_len_none {A} (f : A -> bool) l : (forall x, In x l -> f x = false) -> length (filter f l) = 0%nat.
Proof. intros H. rewrite (filter_len_ext f (fun _ => false)); auto. rewrite filter_false. auto. Qed.

Lemma delivered_once sp gsize me fl tl red o i : Good1d sp gsize fl tl -> TransAt gsize me red fl tl o i ->
  let written := (nlocal o i + length (filter (fun x => inb i (rc_box x)) (tp_recv o)) +
    length (filter (fun x => inb i (rd_box x) && has_member me (members gsize o (rd_out x))) (tp_red o)))%nat in
  (Owns tl me i -> written = 1%nat) /\ (~ Owns tl me i -> written = 0%nat).
Proof.
  intros G [[L1 L2] _ R [D1 D2] DG] written.
  assert (DO : (exists s, OnlyOwner fl s i) \/ (forall s, ~ OnlyOwner fl s i)).
  { destruct (owners gsize (rl_trs fl) (i0 i)) as [|s [|s' r]] eqn:E.
    - right. intros s H. apply (g_only _ _ _ _ G true) in H. simpl in H. congruence.
    - left. exists s. apply (g_only _ _ _ _ G true). exact E.
    - right. intros s0 H. apply (g_only _ _ _ _ G true) in H. simpl in H. congruence. }
  assert (RC : forall x, In x (tp_recv o) -> inb i (rc_box x) = true -> OnlyOwner fl (rc_from x) i /\ rc_from x <> me /\ Owns tl me i).
  { intros x Hx Hi. destruct (R (rc_from x)) as [R1 R2]. assert (P : (0 < nrecv o (rc_from x) i)%nat) by (eapply filter_len_pos; [exact Hx|lia]).
    assert (DW : Owns tl me i \/ ~ Owns tl me i).
    { pose proof (g_own_owns _ _ _ _ G false me i) as Q. simpl in Q. destruct (in_dec Z.eq_dec me (owners gsize (rl_trs tl) (i0 i))); [left|right]; tauto. }
    assert (DM : OnlyOwner fl (rc_from x) i \/ ~ OnlyOwner fl (rc_from x) i).
    { pose proof (g_only _ _ _ _ G true (rc_from x) i) as Q. simpl in Q. destruct (list_eq_dec Z.eq_dec (owners gsize (rl_trs fl) (i0 i)) [rc_from x]); [left|right]; tauto. }
    destruct (Z.eq_dec (rc_from x) me) as [E|E]; [rewrite R2 in P; [lia|tauto]|].
    destruct DW as [DW|DW]; [|rewrite R2 in P; [lia|tauto]]. destruct DM as [DM|DM]; [auto|rewrite R2 in P; [lia|tauto]]. }
  assert (UQ : forall s s', OnlyOwner fl s i -> OnlyOwner fl s' i -> s = s') by (intros s s' A B; apply B; apply A; auto).
  assert (HM : forall x, In x (tp_red o) -> inb i (rd_box x) = true -> (has_member me (members gsize o (rd_out x)) = true <-> Owns tl me i)).
  { intros x Hx Hi. destruct (DG x Hx Hi) as [_ [_ [ts [T1 [T2 T3]]]]]. rewrite T1, <- (T3 me). simpl. rewrite existsb_exists. split.
    - intros [y [Y1 Y2]]. assert (y = me) by lia. congruence.
    - intros H. exists me. split; auto. lia. }
  assert (LE : (length (filter (fun x => inb i (rd_box x) && has_member me (members gsize o (rd_out x))) (tp_red o)) <= nred o i)%nat)
    by (apply filter_len_le; intros x _; lia).
  split; intros Ho; unfold written.
  - destruct DO as [[s Hs]|Hs].
    + assert (N : nred o i = 0%nat) by (apply D2; intros [X _]; apply (X s); auto).
      destruct (Z.eq_dec s me) as [->|E].
      * rewrite L1 by auto. rewrite (filter_len_none (fun x => inb i (rc_box x))); [lia|]. intros x Hx. destruct (inb i (rc_box x)) eqn:E; auto.
        destruct (RC x Hx E) as [A [B _]]. exfalso. apply B. eapply UQ; eauto.
      * rewrite L2 by (intros [X _]; apply E; eapply UQ; eauto).
        rewrite (filter_len_ext (fun x => inb i (rc_box x)) (fun x => inb i (rc_box x) && (rc_from x =? s))).
        -- fold (nrecv o s i). rewrite (proj1 (R s)) by auto. lia.
        -- intros x Hx. destruct (inb i (rc_box x)) eqn:E1; auto. destruct (RC x Hx E1) as [A _]. assert (rc_from x = s) by (eapply UQ; eauto). lia.
    + rewrite L2 by (intros [X _]; exact (Hs me X)). rewrite (filter_len_none (fun x => inb i (rc_box x))).
      * rewrite (filter_len_ext _ (fun x => inb i (rd_box x))); [fold (nred o i); rewrite D1 by auto; reflexivity|].
        intros x Hx. destruct (inb i (rd_box x)) eqn:E; auto. simpl. apply (HM x Hx E). auto.
      * intros x Hx. destruct (inb i (rc_box x)) eqn:E; auto. destruct (RC x Hx E) as [A _]. exfalso. exact (Hs _ A).
  - rewrite L2 by tauto. rewrite (filter_len_none (fun x => inb i (rc_box x))).
    + rewrite filter_len_none; auto. intros x Hx. destruct (inb i (rd_box x)) eqn:E; auto. simpl.
      destruct (has_member me (members gsize o (rd_out x))) eqn:E2; auto. apply (HM x Hx E) in E2. tauto.
    + intros x Hx. destruct (inb i (rc_box x)) eqn:E; auto. destruct (RC x Hx E) as [A [B C]]. tauto.
Qed.
