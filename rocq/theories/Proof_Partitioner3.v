(* C14: halo partitioner *)
From Coq Require Import ZArith List Bool Lia Permutation Sorted ZifyBool ZifyNat.
From Verif Require Import Base ListFacts Model_Space Spec_Space Proof_Space Model_RangeList Spec_RangeList
  Proof_RangeList Proof_RangeList2 Proof_RangeList3 Proof_RangeList4 Proof_RangeList5 Proof_Cover
  Model_Partitioner Spec_Partitioner Proof_Partitioner Proof_Partitioner2.
Import ListNotations.
Open Scope Z_scope.

Lemma halo_boxes_In d depth sb b c : valid_dims d ->
  (In c (halo_boxes d depth sb b) <-> c = b \/ exists k, (k < d)%nat /\ In c (halo_dim k depth sb b)).
Proof.
  intros Hd. unfold halo_boxes. dims_cases Hd.
  - simpl (Nat.ltb 1 1). rewrite app_nil_r. simpl. split.
    + intros [<-|H]; auto. right. exists 0%nat. auto.
    + intros [->|[k [Hk H]]]; auto. assert (k = 0%nat) by lia. subst. auto.
  - simpl (Nat.ltb _ 2). cbv iota. rewrite app_nil_r. simpl In. rewrite in_app_iff. split.
    + intros [<-|[H|H]]; auto; right; [exists 0%nat|exists 1%nat]; auto.
    + intros [->|[k [Hk H]]]; auto. assert (K : (k = 0 \/ k = 1)%nat) by lia. destruct K; subst; auto.
  - simpl (Nat.ltb _ 3). cbv iota. simpl In. rewrite !in_app_iff. split.
    + intros [<-|[H|[H|H]]]; auto; right; [exists 0%nat|exists 1%nat|exists 2%nat]; auto.
    + intros [->|[k [Hk H]]]; auto. assert (K : (k = 0 \/ k = 1 \/ k = 2)%nat) by lia. destruct K as [K|[K|K]]; subst; auto.
Qed.

Lemma halo_dim_In k depth sb b c :
  In c (halo_dim k depth sb b) <->
  (idx_get (b_from b) k > idx_get (b_from sb) k + depth /\
   c = mkBox (idx_set (b_from b) k (idx_get (b_from b) k - depth)) (idx_set (b_to b) k (idx_get (b_from b) k))) \/
  (idx_get (b_to b) k < idx_get (b_to sb) k - depth /\
   c = mkBox (idx_set (b_from b) k (idx_get (b_to b) k)) (idx_set (b_to b) k (idx_get (b_to b) k + depth))).
Proof.
  unfold halo_dim. rewrite in_app_iff.
  destruct (idx_get (b_from b) k >? idx_get (b_from sb) k + depth) eqn:A;
  destruct (idx_get (b_to b) k <? idx_get (b_to sb) k - depth) eqn:B; simpl; split;
    intros; repeat match goal with H : _ \/ _ |- _ => destruct H end; try lia; subst; try tauto;
    try (left; split; [lia|congruence]); try (right; split; [lia|congruence]);
    repeat match goal with H : _ /\ _ |- _ => destruct H end; subst; auto; lia.
Qed.

(* the halo of one range, as computed *)
Lemma halo_one_sound d depth sb b i : valid_dims d -> 0 <= depth -> NonEmpty d b ->
  (exists c, In c (halo_boxes d depth sb b) /\ InBox d i c) ->
  exists j, InBox d j b /\ NearAxis d depth i j.
Proof.
  intros Hd Hp Hn [c [Hc Hi]]. apply halo_boxes_In in Hc; auto. destruct Hc as [->|[k [Hk Hc]]].
  - exists i. split; auto. exists 0%nat. split; [dims_cases Hd; lia|]. split; [lia|auto].
  - destruct Hn as [e He]. rewrite InBox_get in He by auto.
    pose proof (valid_lt3 _ _ Hd Hk) as L3.
    apply halo_dim_In in Hc. destruct Hc as [[A ->]|[A ->]]; rewrite InBox_set in Hi by auto; destruct Hi as [H1 H2].
    + exists (idx_set i k (idx_get (b_from b) k)). split.
      * apply InBox_get; auto. intros k' Hk'. destruct (Nat.eq_dec k' k) as [->|Nk].
        -- rewrite get_set by auto. specialize (He k Hk). lia.
        -- rewrite get_set_other by (auto; eapply valid_lt3; eauto). auto.
      * exists k. split; auto. rewrite get_set by auto. split; [lia|]. intros k' Hk' Nk.
        rewrite get_set_other by (auto; eapply valid_lt3; eauto). auto.
    + exists (idx_set i k (idx_get (b_to b) k - 1)). split.
      * apply InBox_get; auto. intros k' Hk'. destruct (Nat.eq_dec k' k) as [->|Nk].
        -- rewrite get_set by auto. specialize (He k Hk). lia.
        -- rewrite get_set_other by (auto; eapply valid_lt3; eauto). auto.
      * exists k. split; auto. rewrite get_set by auto. split; [lia|]. intros k' Hk' Nk.
        rewrite get_set_other by (auto; eapply valid_lt3; eauto). auto.
Qed.

(* distance of the borders of a range to the borders of the space: none, or larger than
   the depth *)
Definition FarOrTouching (d : nat) (depth : Z) (sb b : box) : Prop :=
  forall k, (k < d)%nat ->
    (idx_get (b_from b) k = idx_get (b_from sb) k \/ idx_get (b_from b) k > idx_get (b_from sb) k + depth) /\
    (idx_get (b_to b) k = idx_get (b_to sb) k \/ idx_get (b_to b) k < idx_get (b_to sb) k - depth).

Lemma halo_one_complete d depth sb b i j : valid_dims d ->
  FarOrTouching d depth sb b -> InBox d i sb -> InBox d j b -> NearAxis d depth i j ->
  exists c, In c (halo_boxes d depth sb b) /\ InBox d i c.
Proof.
  intros Hd Hf Hi Hj [k [Hk [A B]]]. destruct (Hf k Hk) as [F1 F2].
  rewrite InBox_get in Hi, Hj by auto. pose proof (Hj k Hk) as Jk. pose proof (Hi k Hk) as Ik.
  assert (O : forall k', (k' < d)%nat -> k' <> k -> idx_get (b_from b) k' <= idx_get i k' < idx_get (b_to b) k').
  { intros k' Hk' Nk. rewrite B by auto. auto. }
  destruct (Z_lt_dec (idx_get i k) (idx_get (b_from b) k)) as [L|L].
  - exists (mkBox (idx_set (b_from b) k (idx_get (b_from b) k - depth)) (idx_set (b_to b) k (idx_get (b_from b) k))).
    split; [apply halo_boxes_In; auto; right; exists k; split; auto; apply halo_dim_In; left; split; auto; lia|].
    rewrite InBox_set by auto. split; [lia|auto].
  - destruct (Z_lt_dec (idx_get i k) (idx_get (b_to b) k)) as [L2|L2].
    + exists b. split; [apply halo_boxes_In; auto|]. apply InBox_get; auto. intros k' Hk'.
      destruct (Nat.eq_dec k' k) as [->|Nk]; [lia|auto].
    + exists (mkBox (idx_set (b_from b) k (idx_get (b_to b) k)) (idx_set (b_to b) k (idx_get (b_to b) k + depth))).
      split; [apply halo_boxes_In; auto; right; exists k; split; auto; apply halo_dim_In; right; split; auto; lia|].
      rewrite InBox_set by auto. split; [lia|auto].
Qed.

Lemma halo_loop_ok sp d depth sb : forall l cs, halo_loop sp d depth sb l = Ok cs ->
  cs = flat_map (fun x => map (fun b => ACrange (t_task x) (mkRange (Some sp) b) (t_tag x)) (halo_boxes d depth sb (t_box x))) l.
Proof.
  induction l as [|x l IH]; intros cs H; simpl in H; [injection H as <-; reflexivity|].
  apply cassert_ok in H. destruct H as [_ H]. apply obind_ok in H. destruct H as [r [H1 H2]].
  rewrite (IH _ H1) in H2. injection H2 as <-. reflexivity.
Qed.

Lemma halo_calls q p l o lo depth :
  good_sorts q -> valid_dims (sp_dims (pp_space p)) -> 0 <= g_size (pp_group p) ->
  pp_other p = Some o -> op_all o = Some lo -> FrozenList lo -> rl_space lo = op_space o ->
  run_partitioner q (halo_partitioner depth) p None = Ok l ->
  rl_space lo = pp_space p /\ FrozenList l /\ rl_space l = pp_space p /\
  forall t i, Owns l t i <->
    exists x, In x (rl_trs lo) /\ t_task x = t /\
      exists c, In c (halo_boxes (sp_dims (pp_space p)) depth (sp_box (pp_space p)) (t_box x)) /\
        InBox (sp_dims (pp_space p)) i c.
Proof.
  intros Hq Hd Hg Ho Ha F Es H.
  destruct (run_partitioner_ok _ _ _ _ _ Hq Hd Hg H) as [cs [l0 [R1 [_ [_ [FL [EL _]]]]]]].
  simpl in R1. pose proof R1 as R0. unfold runHalo in R1. rewrite Ho in R1. unfold other_ranges in R1. rewrite Ha in R1.
  apply cassert_ok in R1. destruct R1 as [_ R1]. apply cassert_ok in R1. destruct R1 as [D1 R1].
  simpl in R1. apply space_eq_eq in D1. apply halo_loop_ok in R1.
  split; [congruence|]. split; auto. split; auto. intros t i.
  rewrite (derived_run q (halo_partitioner depth) p l o lo _ Hq Hd Hg Ho Ha F ltac:(intros cs2 E; change (runHalo depth p = Ok cs2) in E; rewrite R0 in E; injection E as <-; exact R1) H).
  split.
  - intros [x [Hx [c [Hc G]]]]. apply in_map_iff in Hc. destruct Hc as [b [<- Hb]]. destruct G as [<- G].
    exists x. split; auto. split; auto. exists b. auto.
  - intros [x [Hx [Et [b [Hb G]]]]]. exists x. split; auto. eexists. split; [apply in_map; eauto|]. simpl. auto.
Qed.

Lemma halo_sound q p l o lo depth :
  good_sorts q -> valid_dims (sp_dims (pp_space p)) -> 0 <= g_size (pp_group p) -> 0 <= depth ->
  pp_other p = Some o -> op_all o = Some lo -> FrozenList lo -> rl_space lo = op_space o -> NoEmpty lo ->
  run_partitioner q (halo_partitioner depth) p None = Ok l ->
  forall t i,
    (Owns lo t i -> Owns l t i) /\
    (Owns l t i -> InBox (sp_dims (pp_space p)) i (sp_box (pp_space p)) /\
       exists j, Owns lo t j /\ NearAxis (sp_dims (pp_space p)) depth i j).
Proof.
  intros Hq Hd Hg Hp Ho Ha F Es N H t i.
  destruct (halo_calls _ _ _ _ _ _ Hq Hd Hg Ho Ha F Es H) as [E1 [FL [E2 O]]]. split.
  - intros K. apply O. apply owns_iff_trs in K; auto. destruct K as [x [Hx [Et K]]].
    exists x. split; auto. split; auto. exists (t_box x). split; [apply halo_boxes_In; auto|]. congruence.
  - intros K. split; [rewrite <- E2; eapply frozen_inside; eauto|]. apply O in K.
    destruct K as [x [Hx [Et K]]].
    pose proof (noempty_in lo x F N Hx) as Ne. rewrite E1 in Ne.
    destruct (halo_one_sound _ _ _ _ _ Hd Hp Ne K) as [j [J1 J2]]. exists j. split; auto.
    apply owns_iff_trs; auto. exists x. rewrite E1. auto.
Qed.

Lemma halo_complete q p l o lo depth :
  good_sorts q -> valid_dims (sp_dims (pp_space p)) -> 0 <= g_size (pp_group p) -> 0 <= depth ->
  pp_other p = Some o -> op_all o = Some lo -> FrozenList lo -> rl_space lo = op_space o -> NoEmpty lo ->
  (forall t n x, rl_tidrange lo t n = Ok (Some x) ->
     FarOrTouching (sp_dims (pp_space p)) depth (sp_box (pp_space p)) (t_box x)) ->
  run_partitioner q (halo_partitioner depth) p None = Ok l ->
  forall t i,
    InBox (sp_dims (pp_space p)) i (sp_box (pp_space p)) ->
    (exists j, Owns lo t j /\ NearAxis (sp_dims (pp_space p)) depth i j) -> Owns l t i.
Proof.
  intros Hq Hd Hg Hp Ho Ha F Es N Hf H t i Hi [j [J1 J2]].
  destruct (halo_calls _ _ _ _ _ _ Hq Hd Hg Ho Ha F Es H) as [E1 [FL [E2 O]]].
  apply O. apply owns_iff_trs in J1; auto. destruct J1 as [x [Hx [Et K]]]. rewrite E1 in K.
  exists x. split; auto. split; auto. destruct (frozen_in_range lo x F Hx) as [n Hn].
  eapply halo_one_complete; eauto.
Qed.
