(* Proofs about Model_RangeList: migration, all obtainable frozen lists *)
From Coq Require Import ZArith List Bool Lia ZifyBool ZifyNat Permutation Sorted.
From Verif Require Import Base Model_Space Spec_Space Proof_Space Model_RangeList Spec_RangeList
  Proof_RangeList Proof_RangeList2 Proof_RangeList3.
Import ListNotations.
Open Scope Z_scope.

Lemma mig_ids_ok tids n idmap : forall l l',
  mig_ids tids n idmap l = Ok l' ->
  length l' = length l /\
  forall k x, nth_error l k = Some x ->
    exists y, nth_error l' k = Some y /\ aread idmap (t_task x) = Ok (t_task y) /\
      0 <= t_task y < n /\ t_box y = t_box x /\ t_tag y = t_tag x.
Proof.
  induction l as [|x l IH]; simpl; intros l' H.
  - inversion H; subst. split; auto. intros [|k]; discriminate.
  - apply cassert_ok in H. destruct H as [H1 H]. apply obind_ok in H. destruct H as [m [H2 H]].
    apply cassert_ok in H. destruct H as [H3 H]. apply obind_ok in H. destruct H as [r [H4 H]].
    inversion H; subst; clear H. destruct (IH _ H4) as [I1 I2]. split; [simpl; lia|].
    intros [|k] y Hy; simpl in *.
    + inversion Hy; subst. eexists. split; [reflexivity|]. simpl. repeat split; auto; lia.
    + apply I2; auto.
Qed.

Lemma migrate_ok l qg idmap n l' :
  Frozen l -> is_qsort trgen_cmp qg -> 0 <= n -> rl_migrate qg l idmap n = Ok l' ->
  Frozen l' /\ rl_space l' = rl_space l /\ rl_tids l' = n /\
  (forall u i, Owns l' u i <-> exists t, aread idmap t = Ok u /\ Owns l t i).
Proof.
  intros F Hq Hn H. unfold rl_migrate in H.
  destruct (rl_off l) as [off|] eqn:Eo; [|discriminate].
  apply obind_ok in H. destruct H as [[] [H1 H]].
  apply obind_ok in H. destruct H as [t [H2 H]].
  destruct (mig_ids_ok _ _ _ _ _ H2) as [M1 M2].
  set (l1 := match rl_trange l with None => l | Some _ => set_trange l (Some t) end) in *.
  assert (E1 : rl_trs l1 = t).
  { unfold l1, rl_trs in *. destruct (rl_trange l) eqn:E; simpl; auto.
    rewrite E; simpl. destruct t; auto; discriminate. }
  assert (E2 : rl_trs (set_tids l1 n) = t) by (rewrite <- E1; reflexivity).
  destruct (sortRanges_same qg (set_tids l1 n)) as [S1 [S2 [S3 S4]]].
  pose proof (sortRanges_trs qg (set_tids l1 n) Hq) as S5. rewrite E2 in S5.
  destruct (Hq t) as [P S].
  assert (T : Forall (fun x => 0 <= t_task x < n) t).
  { apply Forall_forall. intros y Hy. apply In_nth_error in Hy. destruct Hy as [k Hk].
    destruct (nth_error (rl_trs l) k) as [x|] eqn:Ex.
    - destruct (M2 _ _ Ex) as [y' [Y1 [Y2 [Y3 _]]]]. congruence.
    - apply nth_error_None in Ex. apply nth_error_Some_lt in Hk. lia. }
  destruct (updateOffsets_ok (sortRanges qg (set_tids l1 n))) as [l2 [U1 [U2 [U3 [U4 [U5 _]]]]]].
  - rewrite S3. simpl. unfold l1. destruct (rl_trange l); simpl; apply (fz_si _ F).
  - rewrite S2. auto.
  - rewrite S5. apply bytask_of_trle; auto.
  - rewrite S5, S2. simpl. eapply Forall_perm; eauto.
  - assert (l2 = l') by congruence. subst l2. split; auto.
    assert (Esp : rl_space l' = rl_space l).
    { rewrite U4, S1. simpl. unfold l1. destruct (rl_trange l); auto. }
    split; auto. split; [rewrite U5, S2; auto|].
    intros u i. rewrite frozen_owns by auto. rewrite Esp.
    change (owned (sp_dims (rl_space l)) (rl_trs l') u i <-> exists t, aread idmap t = Ok u /\ Owns l t i).
    rewrite (owned_key _ _ _ _ _ U3), S5, <- (owned_perm _ _ _ _ _ P).
    split.
    + intros [y [Hy [K1 K2]]]. apply In_nth_error in Hy. destruct Hy as [k Hk].
      destruct (nth_error (rl_trs l) k) as [x|] eqn:Ex.
      2:{ apply nth_error_None in Ex. apply nth_error_Some_lt in Hk. lia. }
      destruct (M2 _ _ Ex) as [y' [Y1 [Y2 [Y3 [Y4 Y5]]]]].
      assert (y' = y) by congruence. subst y'.
      exists (t_task x). split; [congruence|]. apply frozen_owns; auto.
      exists x. split; [eapply nth_error_In; eauto|]. split; auto. rewrite <- Y4; auto.
    + intros [v [Hv Ho]]. apply frozen_owns in Ho; auto. destruct Ho as [x [Hx [K1 K2]]].
      apply In_nth_error in Hx. destruct Hx as [k Hk].
      destruct (M2 _ _ Hk) as [y [Y1 [Y2 [Y3 [Y4 Y5]]]]].
      exists y. split; [eapply nth_error_In; eauto|]. split; [congruence|]. rewrite Y4. auto.
Qed.

Lemma FrozenList_Frozen l : FrozenList l -> Frozen l /\ valid_dims (sp_dims (rl_space l)).
Proof.
  induction 1.
  - pose proof (freeze_ok_cond _ _ _ _ _ _ _ _ H2 H1 H3) as Hc.
    destruct (freeze_after_appends s tids h l qg qs m H2 H1 H0 Hc) as [l2 [G1 [G2 [G3 _]]]].
    assert (l2 = l') by congruence. subst. auto.
  - destruct (run_singles_ok _ _ _ _ H3) as [A1 [A2 [A3 [A4 [A5 [A6 A7]]]]]].
    destruct h as [|x h].
    + unfold rl_freeze in H4. rewrite A3 in H4. simpl in H4.
      rewrite (proj2 A6 eq_refl) in H4.
      destruct m.
      { unfold mergeSortedRanges, sortRanges in H4. rewrite A2 in H4. rewrite A2 in H4. discriminate. }
      simpl in H4. unfold sortRanges in H4. rewrite A2 in H4.
      destruct (updateOffsets_ok l) as [l2 [U1 [U2 [U3 [U4 [U5 _]]]]]]; auto.
      * apply A6; auto.
      * lia.
      * unfold rl_trs. rewrite A2. constructor.
      * unfold rl_trs. rewrite A2. constructor.
      * assert (l2 = l') by congruence. subst. rewrite U4. auto.
    + destruct (Nat.eq_dec (sp_dims s) 1) as [Hd|Hd].
      * destruct (freeze_singles_ok s tids _ l qg qs m H3 H2 ltac:(discriminate) Hd H0) as [l2 [y [r [G1 [G2 [G3 _]]]]]].
        assert (l2 = l') by congruence. subst. rewrite G3; auto.
      * unfold rl_freeze in H4. rewrite A3 in H4. simpl in H4.
        destruct (rl_tss1d l) eqn:E; [|destruct A6 as [A6 _]; specialize (A6 eq_refl); discriminate].
        unfold updateOffsetsSI in H4. rewrite E in H4. simpl in A1. rewrite A1 in H4. simpl in H4.
        rewrite A4 in H4. apply Nat.eqb_neq in Hd. rewrite Hd in H4. simpl in H4. discriminate.
  - destruct IHFrozenList as [F V].
    destruct (migrate_ok _ _ _ _ _ F H0 H1 H2) as [F' [Hs _]]. rewrite Hs. auto.
Qed.

(* property lemmas about all obtainable frozen lists *)

Lemma isAll_sound' l : FrozenList l -> rl_isAll l = true ->
  forall t i, 0 <= t < rl_tids l -> InBox (sp_dims (rl_space l)) i (sp_box (rl_space l)) -> Owns l t i.
Proof. intros H. destruct (FrozenList_Frozen _ H). apply isAll_sound; auto. Qed.

Lemma isSingle_sound' l t : FrozenList l -> rl_isSingle l = Ok t -> t <> -1 ->
  0 <= t < rl_tids l /\
  (forall i, InBox (sp_dims (rl_space l)) i (sp_box (rl_space l)) -> Owns l t i) /\
  (forall u i, Owns l u i -> u = t).
Proof. intros H. destruct (FrozenList_Frozen _ H). apply isSingle_sound; auto. Qed.

Lemma isEqual_sound' l1 l2 : FrozenList l1 -> FrozenList l2 -> rl_space l1 = rl_space l2 ->
  exists b, rl_isEqual l1 l2 = Ok b /\ (b = true -> forall t i, Owns l1 t i <-> Owns l2 t i).
Proof.
  intros H1 H2. destruct (FrozenList_Frozen _ H1), (FrozenList_Frozen _ H2).
  intros; apply isEqual_sound; auto.
Qed.

Lemma enumeration_any l t : FrozenList l -> 0 <= t < rl_tids l ->
  exists xs : list trg,
    rl_tidrangecount l t = Ok (Z.of_nat (length xs)) /\
    (forall n, rl_tidrange l t n = Ok (if n <? 0 then None else nth_error xs (Z.to_nat n))) /\
    (forall x, In x xs -> t_task x = t) /\
    (forall i, Owns l t i <-> exists x, In x xs /\ InBox (sp_dims (rl_space l)) i (t_box x)).
Proof.
  intros H Ht. destruct (FrozenList_Frozen _ H) as [F V].
  exists (mine t (rl_trs l)). split; [apply frozen_tidrangecount; auto|].
  split; [intros; apply frozen_tidrange; auto|]. split.
  - intros x Hx. apply filter_In in Hx. lia.
  - intros i. rewrite frozen_owns by auto. unfold mine. split.
    + intros [x [K1 [K2 K3]]]. exists x. rewrite filter_In. split; [split; [auto|lia]|auto].
    + intros [x [K1 K2]]. apply filter_In in K1. exists x. split; [tauto|]. split; [lia|auto].
Qed.
