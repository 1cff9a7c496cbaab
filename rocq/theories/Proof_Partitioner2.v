(* C12-C14, C16: simple partitioners *)
From Coq Require Import ZArith List Bool Lia Permutation Sorted ZifyBool ZifyNat.
From Verif Require Import Base ListFacts Model_Space Spec_Space Proof_Space Model_RangeList Spec_RangeList
  Proof_RangeList Proof_RangeList2 Proof_RangeList3 Proof_RangeList4 Proof_RangeList5 Proof_Cover
  Model_Partitioner Spec_Partitioner Proof_Partitioner.
Import ListNotations.
Open Scope Z_scope.

(* ---- runs which succeed ---- *)

(* a range call the list accepts *)
Definition ok_call (s : space) (tids : Z) (c : acall) : Prop :=
  match c with
  | ACrange t r _ => 0 <= t < tids /\ r_space r = Some s /\ box_within (sp_dims s) (r_box r) (sp_box s) = true
  | ACidx _ _ => False
  end.

Lemma rl_append_total l t r g : rl_tss1d l = None -> 0 <= t < rl_tids l -> r_space r = Some (rl_space l) ->
  box_within (sp_dims (rl_space l)) (r_box r) (sp_box (rl_space l)) = true ->
  rl_append l t r g = Ok (set_trange l (Some (rl_trs l ++ [mkTrg t (r_box r) g 0]))).
Proof.
  intros H1 H2 H3 H4. unfold rl_append. rewrite H3, space_eq_refl, H1. simpl.
  replace ((0 <=? t) && (t <? rl_tids l)) with true by lia. simpl.
  unfold range_within_space, range_within_range. rewrite H3. simpl. rewrite space_eq_refl. simpl.
  rewrite H4. reflexivity.
Qed.

Lemma run_calls_total s tids h : Forall (ok_call s tids) h -> exists l, run_calls s tids h = Ok l.
Proof.
  intros F. unfold run_calls.
  assert (G : forall l, rl_tss1d l = None -> rl_tids l = tids -> rl_space l = s ->
    exists l', ofold (do_append None) h l = Ok l').
  { induction F as [|c h Hc F IH]; intros l L1 L2 L3; simpl; [eauto|].
    destruct c as [t r g|]; [|contradiction]. destruct Hc as [C1 [C2 C3]]. simpl.
    rewrite rl_append_total; try congruence; try lia. simpl. apply IH; auto. }
  apply G; auto.
Qed.

Lemma ok_call_range s tids h : Forall (ok_call s tids) h -> Forall (fun c => is_range c = true) h.
Proof. apply Forall_impl. intros [|] H; [reflexivity|contradiction]. Qed.

Lemma freeze_calls_total q s tids h l m : good_sorts q -> 0 <= tids ->
  Forall (ok_call s tids) h -> run_calls s tids h = Ok l ->
  (m = true -> h <> [] /\ sp_dims s = 1%nat) ->
  exists l', rl_freeze (q_gen q) (q_si q) l m = Ok l' /\
    Permutation (map (fun x => (t_task x, t_box x, t_tag x)) (rl_trs l'))
      (if m then map key (match q_gen q (map app_trg (map to_app h)) with [] => [] | x :: t => merge_loop x t end)
       else map (fun c => match c with ACrange t r g => (t, r_box r, g) | ACidx t _ => (t, zbox, 0) end) h).
Proof.
  intros [Q1 [Q2 Q3]] Ht F H Hm.
  destruct (run_calls_kind _ _ _ _ H) as [[F' R]|[N [F' R]]].
  - destruct (freeze_after_appends s tids (map to_app h) l (q_gen q) (q_si q) m R Q1 Ht) as [l' [G1 [G2 [G3 [G4 [G5 _]]]]]].
    { intros E. destruct (Hm E). split; auto. destruct h; simpl; congruence. }
    exists l'. split; auto. unfold key in G5. rewrite G5. destruct m; [apply Permutation_refl|].
    destruct (Q1 (map app_trg (map to_app h))) as [P _].
    eapply perm_trans; [apply Permutation_map; apply Permutation_sym; exact P|].
    rewrite !map_map. erewrite map_ext_in; [apply Permutation_refl|].
    intros c Hc. rewrite Forall_forall in F. specialize (F c Hc). destruct c; [reflexivity|contradiction].
  - exfalso. destruct h as [|c h]; [congruence|]. inversion F; subst. inversion F'; subst.
    destruct c; [discriminate|contradiction].
Qed.

Lemma cover_dim_same old b k : (k < 3)%nat -> forall acc, cover_dim old b (b, acc) k = Ok (b, acc).
Proof.
  intros Hk acc. unfold cover_dim. rewrite Z.ltb_irrefl. simpl.
  replace (idx_get (b_to b) k >? idx_get (b_to b) k) with false by lia. reflexivity.
Qed.

Lemma cover_one_same d old b acc : valid_dims d -> NonEmpty d b -> cover_one d old b acc b = Ok acc.
Proof.
  intros Hd Hn. unfold cover_one. destruct (box_intersect d b b) eqn:E.
  - assert (G : forall n, (n <= 3)%nat -> ofold (cover_dim old b) (seq 0 n) (b, acc) = Ok (b, acc)).
    { induction n as [|n IH]; intros Hn3; [reflexivity|]. rewrite seq_S, ofold_app, IH by lia. cbn [obind ofold].
      rewrite cover_dim_same by lia. reflexivity. }
    rewrite G by (dims_cases Hd; lia). reflexivity.
  - exfalso. destruct Hn as [i Hi]. eapply box_intersect_g_none; eauto.
Qed.

Lemma coversSpace_head qf l : valid_dims (sp_dims (rl_space l)) -> is_qsort trgen_cmpfrom qf ->
  NonEmpty (sp_dims (rl_space l)) (sp_box (rl_space l)) ->
  rl_trs l <> [] -> Forall (fun x => t_box x = sp_box (rl_space l)) (rl_trs l) ->
  rl_coversSpace qf l = Ok true.
Proof.
  intros Hd Hq Hn Hl F. destruct (Hq (rl_trs l)) as [P _]. unfold rl_coversSpace.
  destruct (qf (rl_trs l)) as [|x r] eqn:E.
  - apply Permutation_sym, Permutation_nil in P. contradiction.
  - simpl. rewrite Forall_forall in F.
    rewrite (F x). 2:{ eapply Permutation_in; [apply Permutation_sym; eauto|left; auto]. }
    rewrite cover_one_same by auto. reflexivity.
Qed.

Lemma box_within_refl d b : valid_dims d -> box_within d b b = true.
Proof.
  intros Hd. apply box_within_unfold; auto. rewrite !within1_spec. repeat split; lia.
Qed.

Lemma zcount_In n x : In x (zcount n) <-> 0 <= x < n.
Proof.
  unfold zcount. rewrite in_map_iff. split.
  - intros [k [<- Hk]]. apply in_seq in Hk. lia.
  - intros H. exists (Z.to_nat x). split; [lia|]. apply in_seq. lia.
Qed.

(* ---- All and Master ---- *)

Lemma full_calls_run q s ts p (pr : partitioner) :
  good_sorts q -> pp_other p = None -> pp_space p = s ->
  valid_dims (sp_dims s) -> NonEmpty (sp_dims s) (sp_box s) -> ts <> [] ->
  (forall t, In t ts -> 0 <= t < g_size (pp_group p)) ->
  pr_run pr p = Ok (map (fun t => ACrange t (space_asrange s) 0) ts) -> pr_merge pr = false ->
  exists l, run_partitioner q pr p None = Ok l.
Proof.
  intros Hq Ho Hs Hd Hn Hts Ht Hr Hm. unfold run_partitioner. rewrite Ho, Hr, Hm, Hs. simpl.
  set (h := map _ ts).
  assert (F : Forall (ok_call s (g_size (pp_group p))) h).
  { unfold h. apply Forall_forall. intros c Hc. apply in_map_iff in Hc. destruct Hc as [t [<- Hc]].
    simpl. split; [auto|]. split; auto. apply box_within_refl; auto. }
  destruct (run_calls_total _ _ _ F) as [l0 R]. unfold run_calls in R. rewrite R. simpl.
  assert (Hg : 0 <= g_size (pp_group p)).
  { destruct ts as [|t ts]; [congruence|]. specialize (Ht t (or_introl eq_refl)). lia. }
  destruct (freeze_calls_total q _ _ _ _ false Hq Hg F R ltac:(discriminate)) as [l [G1 G2]].
  rewrite G1. simpl.
  destruct (calls_freeze _ _ _ _ _ _ _ Hq Hd Hg R G1) as [_ [E1 _]].
  assert (C : rl_coversSpace (q_from q) l = Ok true).
  { destruct Hq as [Q1 [Q2 Q3]].
    apply coversSpace_head; auto; try (rewrite E1; auto).
    - intros E. rewrite E in G2. simpl in G2. apply Permutation_nil in G2. destruct ts; [auto|discriminate].
    - apply Forall_forall. intros x Hx.
      assert (K : In (t_task x, t_box x, t_tag x) (map (fun x => (t_task x, t_box x, t_tag x)) (rl_trs l)))
        by (apply (in_map (fun x => (t_task x, t_box x, t_tag x))); auto).
      eapply Permutation_in in K; [|exact G2]. unfold h in K. rewrite map_map in K.
      apply in_map_iff in K. destruct K as [t [K _]]. simpl in K. congruence. }
  rewrite C. simpl. destruct (pr_nocover pr); simpl; eauto.
Qed.

Lemma all_total q p : good_sorts q -> pp_other p = None -> valid_dims (sp_dims (pp_space p)) ->
  NonEmpty (sp_dims (pp_space p)) (sp_box (pp_space p)) -> 0 < g_size (pp_group p) ->
  exists l, run_partitioner q all_partitioner p None = Ok l.
Proof.
  intros Hq Ho Hd Hn Hg. eapply (full_calls_run q (pp_space p) (zcount (g_size (pp_group p)))); auto.
  - intros E. assert (K : In 0 (zcount (g_size (pp_group p)))) by (apply zcount_In; lia).
    rewrite E in K. destruct K.
  - intros t. apply zcount_In.
Qed.

Lemma master_total q p : good_sorts q -> pp_other p = None -> valid_dims (sp_dims (pp_space p)) ->
  NonEmpty (sp_dims (pp_space p)) (sp_box (pp_space p)) -> 0 < g_size (pp_group p) ->
  exists l, run_partitioner q master_partitioner p None = Ok l.
Proof.
  intros Hq Ho Hd Hn Hg. eapply (full_calls_run q (pp_space p) [0]); auto.
  - discriminate.
  - intros t [<-|[]]. lia.
Qed.

Lemma all_owns q p l : good_sorts q -> valid_dims (sp_dims (pp_space p)) -> 0 <= g_size (pp_group p) ->
  run_partitioner q all_partitioner p None = Ok l ->
  forall t i, Owns l t i <-> 0 <= t < g_size (pp_group p) /\ InBox (sp_dims (pp_space p)) i (sp_box (pp_space p)).
Proof.
  intros Hq Hd Hg H t i.
  destruct (run_partitioner_ok _ _ _ _ _ Hq Hd Hg H) as [cs [l0 [R1 [_ [_ [_ [_ [_ [O _]]]]]]]]].
  simpl in R1. unfold runAll in R1. injection R1 as <-. rewrite O. unfold Given. simpl. split.
  - intros [c [Hc G]]. apply in_map_iff in Hc. destruct Hc as [u [<- Hu]]. apply zcount_In in Hu.
    destruct G as [<- G]. auto.
  - intros [H1 H2]. eexists. split; [apply (in_map (fun t => ACrange t _ 0)); apply zcount_In; eauto|].
    simpl. auto.
Qed.

Lemma master_owns q p l : good_sorts q -> valid_dims (sp_dims (pp_space p)) -> 0 <= g_size (pp_group p) ->
  run_partitioner q master_partitioner p None = Ok l ->
  forall t i, Owns l t i <-> t = 0 /\ InBox (sp_dims (pp_space p)) i (sp_box (pp_space p)).
Proof.
  intros Hq Hd Hg H t i.
  destruct (run_partitioner_ok _ _ _ _ _ Hq Hd Hg H) as [cs [l0 [R1 [_ [_ [_ [_ [_ [O _]]]]]]]]].
  simpl in R1. unfold runMaster in R1. injection R1 as <-. rewrite O. unfold Given. simpl. split.
  - intros [c [[<-|[]] G]]. simpl in G. intuition.
  - intros [H1 H2]. eexists. split; [left; reflexivity|]. simpl. auto.
Qed.

(* ---- partitioners derived from another partitioning ---- *)

Lemma frozen_range_in l t n x : FrozenList l -> rl_tidrange l t n = Ok (Some x) ->
  In x (rl_trs l) /\ t_task x = t.
Proof.
  intros F H. destruct (FrozenList_Frozen _ F) as [F' _].
  destruct (Z_lt_dec t 0) as [Ht|Ht].
  { exfalso. unfold rl_tidrange in H. destruct (rl_off l); [|discriminate].
    replace ((0 <=? t) && (t <? rl_tids l)) with false in H by lia. discriminate. }
  destruct (Z_lt_dec t (rl_tids l)) as [Ht2|Ht2].
  2:{ exfalso. unfold rl_tidrange in H. destruct (rl_off l); [|discriminate].
    replace ((0 <=? t) && (t <? rl_tids l)) with false in H by lia. discriminate. }
  destruct (enumeration_any l t F ltac:(lia)) as [xs [E1 [E2 [E3 _]]]].
  rewrite E2 in H. destruct (n <? 0) eqn:En; [discriminate|]. injection H as H.
  pose proof (nth_error_In _ _ H) as Hx. split; [|apply E3; auto].
  pose proof (frozen_tidrange l F' t n ltac:(lia)) as K. rewrite E2, En in K.
  injection K as K. rewrite H in K. symmetry in K.
  apply nth_error_In in K. unfold mine in K. apply filter_In in K. tauto.
Qed.

Lemma frozen_in_range l x : FrozenList l -> In x (rl_trs l) ->
  exists n, rl_tidrange l (t_task x) n = Ok (Some x).
Proof.
  intros F H. destruct (FrozenList_Frozen _ F) as [F' _].
  pose proof (fz_tasks l F') as T. rewrite Forall_forall in T. specialize (T x H).
  assert (K : In x (mine (t_task x) (rl_trs l))) by (unfold mine; apply filter_In; split; auto; lia).
  apply In_nth_error in K. destruct K as [n K]. exists (Z.of_nat n).
  rewrite (frozen_tidrange l F' (t_task x) (Z.of_nat n) T). 
  replace (Z.of_nat n <? 0) with false by lia. rewrite Nat2Z.id. rewrite K. reflexivity.
Qed.


(* a frozen list owns nothing outside of its space *)
Lemma frozen_inside l : FrozenList l ->
  forall t i, Owns l t i -> InBox (sp_dims (rl_space l)) i (sp_box (rl_space l)).
Proof.
  intros F0. induction F0 as [s tids h l qg qs m l' Hd Ht Hq R Hf|s tids h l qg qs m l' Hd Ht Hq Hqs R Hf|l qg idmap n l' F0 IH Hq Hn Hm]; intros t i Ow.
  - apply (freeze_owns_gen _ _ _ _ _ _ _ _ Ht Hq R Hf) in Ow.
    destruct (run_appends_ok _ _ _ _ R) as [A1 [A2 [A3 [A4 [A5 [A6 [A7 A8]]]]]]].
    pose proof (freeze_ok_cond _ _ _ _ _ _ _ _ R Hq Hf) as Hc.
    destruct (freeze_after_appends _ _ _ _ _ qs _ R Hq Ht Hc) as [l2 [G1 [G2 [G3 [G4 _]]]]].
    assert (l2 = l') by congruence. subst l2.
    destruct Ow as [a [Ha [_ K]]]. rewrite Forall_forall in A8. specialize (A8 a Ha).
    destruct A8 as [_ [[rs [B1 B2]] B3]]. apply space_eq_eq in B2. subst rs. rewrite G3.
    destruct (a_range a) as [sp b]. simpl in *. subst sp. eapply within_space_sub; eauto.
  - destruct (run_singles_ok _ _ _ _ R) as [A1 [A2 [A3 [A4 [A5 [A6 A7]]]]]].
    destruct h as [|a h].
    + exfalso. assert (E : run_appends s tids [] = Ok l) by exact R.
      apply (freeze_owns_gen _ _ _ _ _ _ _ _ Ht Hq E Hf) in Ow. destruct Ow as [a [[] _]].
    + assert (Hd1 : sp_dims s = 1%nat).
      { unfold rl_freeze in Hf. rewrite A3 in Hf. simpl in Hf.
        destruct (rl_tss1d l) as [si|] eqn:Es.
        - unfold updateOffsetsSI in Hf. rewrite Es in Hf. apply cassert_ok in Hf. destruct Hf as [_ Hf].
          rewrite A4 in Hf. destruct (Nat.eqb (sp_dims s) 1) eqn:E1; [lia|discriminate].
        - exfalso. destruct A6 as [A6 _]. specialize (A6 eq_refl). discriminate. }
      assert (N : a :: h <> []) by discriminate.
      destruct (freeze_singles_ok _ _ _ _ qg _ m R Hqs N Hd1 Ht) as [l2 [x [r [G1 [G2 [G3 _]]]]]].
      assert (l2 = l') by congruence. subst l2.
      destruct (freeze_owns_singles _ _ _ _ qg _ m Ht Hqs N Hd1 R) as [l2 [G5 [G6 _]]].
      assert (l2 = l') by congruence. subst l2.
      apply G6 in Ow. rewrite Forall_forall in A7. specialize (A7 _ Ow). simpl in A7.
      rewrite G3, Hd1. unfold InBox. lia.
  - destruct (FrozenList_Frozen _ F0) as [F' _].
    destruct (migrate_ok _ _ _ _ _ F' Hq Hn Hm) as [M1 [M2 [M3 M4]]].
    apply M4 in Ow. destruct Ow as [u [_ Ow]]. rewrite M2. eapply IH; eauto.
Qed.

Lemma frozen_sub l x : FrozenList l -> In x (rl_trs l) ->
  SubBox (sp_dims (rl_space l)) (t_box x) (sp_box (rl_space l)).
Proof.
  intros F Hx i Hi. eapply (frozen_inside l F (t_task x)). apply owns_iff_trs; auto. exists x; auto.
Qed.

Lemma noempty_in l x : FrozenList l -> NoEmpty l -> In x (rl_trs l) -> NonEmpty (sp_dims (rl_space l)) (t_box x).
Proof. intros F N Hx. destruct (frozen_in_range l x F Hx) as [n H]. eapply N; eauto. Qed.

(* what runs of the derived partitioners have in common *)
Lemma derived_run q pr p l o lo (f : trg -> list acall) :
  good_sorts q -> valid_dims (sp_dims (pp_space p)) -> 0 <= g_size (pp_group p) ->
  pp_other p = Some o -> op_all o = Some lo -> FrozenList lo ->
  (forall cs, pr_run pr p = Ok cs -> cs = flat_map f (rl_trs lo)) ->
  run_partitioner q pr p None = Ok l ->
  forall t i, Owns l t i <-> exists x, In x (rl_trs lo) /\ exists c, In c (f x) /\ Gives (sp_dims (pp_space p)) c t i.
Proof.
  intros Hq Hd Hg Ho Ha F Hr H t i.
  destruct (run_partitioner_ok _ _ _ _ _ Hq Hd Hg H) as [cs [l0 [R1 [_ [_ [_ [_ [_ [O _]]]]]]]]].
  specialize (Hr _ R1). subst cs. rewrite O. unfold Given. simpl. split.
  - intros [c [Hc G]]. apply in_flat_map in Hc. destruct Hc as [x [Hx Hc]]. eauto.
  - intros [x [Hx [c [Hc G]]]]. exists c. split; auto. apply in_flat_map. eauto.
Qed.

Lemma map_flat {A B} (g : A -> B) l : map g l = flat_map (fun x => [g x]) l.
Proof. induction l; simpl; congruence. Qed.

Lemma valid_lt3 d k : valid_dims d -> (k < d)%nat -> (k < 3)%nat.
Proof. intros H; dims_cases H; lia. Qed.

(* the index with coordinate k replaced *)
Lemma InBox_set d i b k v w : valid_dims d -> (k < d)%nat ->
  (InBox d i (mkBox (idx_set (b_from b) k v) (idx_set (b_to b) k w)) <->
   v <= idx_get i k < w /\ forall k', (k' < d)%nat -> k' <> k -> idx_get (b_from b) k' <= idx_get i k' < idx_get (b_to b) k').
Proof.
  intros Hd Hk. rewrite InBox_get by auto. simpl. split.
  - intros H. split.
    + specialize (H k Hk). rewrite !get_set in H by (eapply valid_lt3; eauto). auto.
    + intros k' Hk' N. specialize (H k' Hk').
      rewrite !get_set_other in H by (auto; eapply valid_lt3; eauto). auto.
  - intros [H1 H2] k' Hk'. destruct (Nat.eq_dec k' k) as [->|N].
    + rewrite !get_set by (eapply valid_lt3; eauto). auto.
    + rewrite !get_set_other by (auto; eapply valid_lt3; eauto). auto.
Qed.

Lemma copy_owns q p l o lo fd td :
  good_sorts q -> valid_dims (sp_dims (pp_space p)) -> 0 <= g_size (pp_group p) ->
  pp_other p = Some o -> op_all o = Some lo -> FrozenList lo -> rl_space lo = op_space o -> NoEmpty lo ->
  run_partitioner q (copy_partitioner fd td) p None = Ok l ->
  forall t i, Owns l t i <->
    InBox (sp_dims (pp_space p)) i (sp_box (pp_space p)) /\
    exists j, Owns lo t j /\ idx_get j fd = idx_get i td.
Proof.
  intros Hq Hd Hg Ho Ha F Es N H t i.
  destruct (FrozenList_Frozen _ F) as [F' Hdo].
  destruct (run_partitioner_ok _ _ _ _ _ Hq Hd Hg H) as [cs [l0 [R1 [_ [_ [FL [EL _]]]]]]].
  assert (D : (fd < sp_dims (op_space o))%nat /\ (td < sp_dims (pp_space p))%nat /\
    cs = flat_map (fun x => [ACrange (t_task x)
        (mkRange (Some (pp_space p))
          (mkBox (idx_set (b_from (sp_box (pp_space p))) td (idx_get (b_from (t_box x)) fd))
                 (idx_set (b_to (sp_box (pp_space p))) td (idx_get (b_to (t_box x)) fd)))) (t_tag x)]) (rl_trs lo)).
  { simpl in R1. unfold runCopy in R1. rewrite Ho in R1. unfold other_ranges in R1. rewrite Ha in R1.
    apply cassert_ok in R1. destruct R1 as [_ R1]. apply cassert_ok in R1. destruct R1 as [D1 R1].
    apply cassert_ok in R1. destruct R1 as [D2 R1]. simpl in R1. injection R1 as <-.
    split; [lia|]. split; [lia|]. apply map_flat. }
  destruct D as [D1 [D2 D3]].
  rewrite (derived_run q _ p l o lo _ Hq Hd Hg Ho Ha F ltac:(intros cs' E; rewrite R1 in E; injection E as <-; exact D3) H).
  split.
  - intros [x [Hx [c [[<-|[]] G]]]].
    assert (IB : InBox (sp_dims (pp_space p)) i (sp_box (pp_space p))).
    { rewrite <- EL. eapply (frozen_inside l FL t).
      rewrite (derived_run q _ p l o lo _ Hq Hd Hg Ho Ha F ltac:(intros cs' E; rewrite R1 in E; injection E as <-; exact D3) H).
      exists x. split; auto. eexists. split; [left; reflexivity|]. exact G. }
    split; auto. destruct G as [<- G]. simpl in G. rewrite InBox_set in G by auto. destruct G as [G _].
    destruct (noempty_in lo x F N Hx) as [j Hj].
    exists (idx_set j fd (idx_get i td)). rewrite Es in Hj.
    pose proof (valid_lt3 (sp_dims (op_space o)) fd ltac:(rewrite <- Es; auto) D1) as L3.
    split; [|apply get_set; auto].
    apply owns_iff_trs; auto. exists x. split; auto. split; auto. rewrite Es.
    rewrite Es in Hdo. apply InBox_get; auto. intros k Hk. rewrite InBox_get in Hj by auto.
    destruct (Nat.eq_dec k fd) as [->|Nk].
    + rewrite get_set by auto. lia.
    + rewrite get_set_other by (auto; eapply valid_lt3; eauto). apply Hj; auto.
  - intros [IB [j [Hj Ej]]]. apply owns_iff_trs in Hj; auto. destruct Hj as [x [Hx [Et Hj]]].
    exists x. split; auto. eexists. split; [left; reflexivity|]. simpl. split; auto.
    rewrite InBox_set by auto. rewrite InBox_get in Hj, IB by auto. rewrite Es in Hj. split.
    + rewrite <- Ej. apply Hj; auto.
    + intros k' Hk' _. apply IB; auto.
Qed.

(* ---- corner halo ---- *)

Lemma chalo_interval d f t from to x :
  0 <= d -> from < to -> f <= from -> to <= t ->
  (chalo_from d f from <= x < chalo_to d t to <->
   f <= x < t /\ exists y, from <= y < to /\ Z.abs (x - y) <= d).
Proof.
  intros Hd H1 H2 H3. unfold chalo_from, chalo_to. split.
  - intros H. destruct (from >? f + d) eqn:A, (to <? t - d) eqn:B.
    all: split; [lia|].
    all: destruct (Z_lt_dec x from); [exists from; lia|].
    all: destruct (Z_lt_dec x to); [exists x; lia|exists (to - 1); lia].
  - intros [H [y [Hy1 Hy2]]]. destruct (from >? f + d) eqn:A, (to <? t - d) eqn:B; lia.
Qed.

Lemma chalo_owns q p l o lo depth :
  good_sorts q -> valid_dims (sp_dims (pp_space p)) -> 0 <= g_size (pp_group p) -> 0 <= depth ->
  pp_other p = Some o -> op_all o = Some lo -> FrozenList lo -> rl_space lo = op_space o -> NoEmpty lo ->
  run_partitioner q (cornerhalo_partitioner depth) p None = Ok l ->
  forall t i, Owns l t i <->
    InBox (sp_dims (pp_space p)) i (sp_box (pp_space p)) /\
    exists j, Owns lo t j /\ Near (sp_dims (pp_space p)) depth i j.
Proof.
  intros Hq Hd Hg Hdp Ho Ha F Es N H t i.
  destruct (run_partitioner_ok _ _ _ _ _ Hq Hd Hg H) as [cs [l0 [R1 [_ [_ [FL [EL _]]]]]]].
  assert (D : op_space o = pp_space p /\
    cs = flat_map (fun x => [ACrange (t_task x)
        (mkRange (Some (pp_space p)) (chalo_box (sp_dims (pp_space p)) depth (sp_box (pp_space p)) (t_box x))) (t_tag x)]) (rl_trs lo)).
  { simpl in R1. unfold runCornerHalo in R1. rewrite Ho in R1. unfold other_ranges in R1. rewrite Ha in R1.
    apply cassert_ok in R1. destruct R1 as [_ R1]. apply cassert_ok in R1. destruct R1 as [D1 R1].
    simpl in R1. injection R1 as <-. split; [apply space_eq_eq; auto|]. apply map_flat. }
  destruct D as [D1 D3]. rewrite D1 in Es.
  rewrite (derived_run q _ p l o lo _ Hq Hd Hg Ho Ha F ltac:(intros cs' E; rewrite R1 in E; injection E as <-; exact D3) H).
  clear D3 R1.
  (* one range *)
  assert (G : forall x, In x (rl_trs lo) ->
    (InBox (sp_dims (pp_space p)) i (chalo_box (sp_dims (pp_space p)) depth (sp_box (pp_space p)) (t_box x)) <->
     InBox (sp_dims (pp_space p)) i (sp_box (pp_space p)) /\
     exists j, InBox (sp_dims (pp_space p)) j (t_box x) /\ Near (sp_dims (pp_space p)) depth i j)).
  { intros x Hx. pose proof (noempty_in lo x F N Hx) as Ne. pose proof (frozen_sub lo x F Hx) as Sb.
    rewrite Es in Ne, Sb. clear - Hd Ne Sb Hdp.
    set (d := sp_dims (pp_space p)) in *. set (sb := sp_box (pp_space p)) in *. set (b := t_box x) in *.
    pose proof (box_within_complete d b sb Hd Ne Sb) as W. apply box_within_unfold in W; auto.
    destruct W as [W0 [W1 W2]]. rewrite within1_spec in W0, W1, W2.
    destruct Ne as [e He]. unfold InBox in He. destruct He as [He0 [He1 He2]].
    pose proof (chalo_interval depth (i0 (b_from sb)) (i0 (b_to sb)) (i0 (b_from b)) (i0 (b_to b)) (i0 i) Hdp ltac:(lia) ltac:(lia) ltac:(lia)) as C0.
    unfold InBox, Near, chalo_box. dims_cases Hd; rewrite Hd in *; simpl.
    - rewrite C0. split.
      + intros [[A [y Hy]] _]. split; [split; [auto|lia]|]. exists (mkIdx y 0 0). simpl. lia.
      + intros [A [j [B C]]]. split; [|lia]. split; [lia|]. exists (i0 j). lia.
    - pose proof (chalo_interval depth (i1 (b_from sb)) (i1 (b_to sb)) (i1 (b_from b)) (i1 (b_to b)) (i1 i) Hdp ltac:(lia) ltac:(lia) ltac:(lia)) as C1.
      rewrite C0. split.
      + intros [[A [y Hy]] [B _]]. specialize (B ltac:(lia)). apply C1 in B. destruct B as [B [z Hz]].
        split; [split; [auto|lia]|]. exists (mkIdx y z 0). simpl. lia.
      + intros [A [j [B C]]]. split; [split; [lia|exists (i0 j); lia]|]. split; [|lia].
        intros _. apply C1. split; [lia|]. exists (i1 j). lia.
    - pose proof (chalo_interval depth (i1 (b_from sb)) (i1 (b_to sb)) (i1 (b_from b)) (i1 (b_to b)) (i1 i) Hdp ltac:(lia) ltac:(lia) ltac:(lia)) as C1.
      pose proof (chalo_interval depth (i2 (b_from sb)) (i2 (b_to sb)) (i2 (b_from b)) (i2 (b_to b)) (i2 i) Hdp ltac:(lia) ltac:(lia) ltac:(lia)) as C2.
      rewrite C0. split.
      + intros [[A [y Hy]] [B B2]]. specialize (B ltac:(lia)). apply C1 in B. destruct B as [B [z Hz]].
        specialize (B2 ltac:(lia)). apply C2 in B2. destruct B2 as [B2 [u Hu]].
        split; [split; [auto|lia]|]. exists (mkIdx y z u). simpl. lia.
      + intros [A [j [B C]]]. split; [split; [lia|exists (i0 j); lia]|]. split; intros _.
        * apply C1. split; [lia|]. exists (i1 j). lia.
        * apply C2. split; [lia|]. exists (i2 j). lia. }
  split.
  - intros [x [Hx [c [[<-|[]] K]]]]. destruct K as [<- K]. simpl in K. apply (G x Hx) in K.
    destruct K as [K1 [j [K2 K3]]]. split; auto. exists j. split; auto.
    apply owns_iff_trs; auto. exists x. rewrite Es. auto.
  - intros [K1 [j [K2 K3]]]. apply owns_iff_trs in K2; auto. destruct K2 as [x [Hx [Et K2]]]. rewrite Es in K2.
    exists x. split; auto. eexists. split; [left; reflexivity|]. simpl. split; auto. apply G; auto. split; auto.
    exists j; auto.
Qed.
