(* Proofs about Model_RangeList: property lemmas C04-C07, C09 *)
From Coq Require Import ZArith List Bool Lia ZifyBool ZifyNat Permutation Sorted.
From Verif Require Import Base Model_Space Spec_Space Proof_Space Model_RangeList Spec_RangeList Proof_RangeList.
Import ListNotations.
Open Scope Z_scope.

Lemma owned_appended s h t i :
  owned (sp_dims s) (map app_trg h) t i <-> Appended s h t i.
Proof.
  unfold owned, Appended. split.
  - intros [x [Hx [H1 H2]]]. apply in_map_iff in Hx. destruct Hx as [a [E Ha]]. subst x. eauto.
  - intros [a [Ha [H1 H2]]]. exists (app_trg a). split; [apply in_map; auto|auto].
Qed.

Lemma freeze_after_appends s tids h l qg qs m :
  run_appends s tids h = Ok l -> is_qsort trgen_cmp qg -> 0 <= tids ->
  (m = true -> h <> [] /\ sp_dims s = 1%nat) ->
  exists l', rl_freeze qg qs l m = Ok l' /\ Frozen l' /\ rl_space l' = s /\ rl_tids l' = tids /\
    let sorted := qg (map app_trg h) in
    let merged := if m then match sorted with [] => [] | h :: t => merge_loop h t end else sorted in
    map key (rl_trs l') = map key merged /\
    exists offs, uo_tasks (Z.to_nat tids) 0 0 merged = Ok (offs, rl_trs l', []).
Proof.
  intros H Hq Ht Hm. destruct (run_appends_ok _ _ _ _ H) as [R1 [R2 [R3 [R4 [R5 [R6 [R8 R7]]]]]]].
  destruct (freeze_gen_ok qg qs l m Hq) as [l' [F1 [F2 [F3 [F4 [F5 F6]]]]]]; auto; try lia.
  - rewrite R1. apply Forall_map. eapply Forall_impl; [|exact R7]. simpl. intros a [Ha _]. lia.
  - intros E. destruct (Hm E) as [Hm1 Hm2]. rewrite R1, R4. split; auto.
    destruct h; simpl; congruence.
  - exists l'. split; auto. split; auto. split; [congruence|]. split; [congruence|].
    rewrite R1 in *. rewrite R5 in *. split; auto.
Qed.

(* when does freezing fail *)
Lemma freeze_fails s tids h l qg qs :
  run_appends s tids h = Ok l -> is_qsort trgen_cmp qg ->
  (h = [] \/ sp_dims s <> 1%nat) -> rl_freeze qg qs l true = Abort.
Proof.
  intros H Hq Hm. destruct (run_appends_ok _ _ _ _ H) as [R1 [R2 [R3 [R4 [R5 [R6 [R8 R7]]]]]]].
  unfold rl_freeze. rewrite R3, R2. simpl.
  destruct (sortRanges_same qg l) as [S1 [S2 [S3 S4]]].
  unfold mergeSortedRanges.
  pose proof (sortRanges_trs qg l Hq) as S5.
  destruct (rl_trange (sortRanges qg l)) as [[|x t]|] eqn:E.
  - exfalso. assert (Hh : h = []).
    { unfold rl_trs in S5 at 1. rewrite E in S5. simpl in S5. rewrite R1 in S5.
      destruct (Hq (map app_trg h)) as [P _]. rewrite <- S5 in P.
      apply Permutation_sym, Permutation_nil in P. destruct h; auto; discriminate. }
    apply R8 in Hh. apply S4 in Hh. discriminate.
  - destruct Hm as [Hm|Hm].
    + exfalso. apply R8 in Hm. apply S4 in Hm. congruence.
    + rewrite S1, R4. apply Nat.eqb_neq in Hm. rewrite Hm. reflexivity.
  - reflexivity.
Qed.

Lemma freeze_ok_cond s tids h l qg qs m l' :
  run_appends s tids h = Ok l -> is_qsort trgen_cmp qg -> rl_freeze qg qs l m = Ok l' ->
  (m = true -> h <> [] /\ sp_dims s = 1%nat).
Proof.
  intros H Hq Hf E. subst m. split.
  - intros Hh. rewrite (freeze_fails s tids h l qg qs H Hq) in Hf; auto; discriminate.
  - destruct (Nat.eq_dec (sp_dims s) 1); auto.
    rewrite (freeze_fails s tids h l qg qs H Hq) in Hf; auto; discriminate.
Qed.

Lemma freeze_owns_gen : forall s tids h l qg qs m l',
  0 <= tids -> is_qsort trgen_cmp qg ->
  run_appends s tids h = Ok l -> rl_freeze qg qs l m = Ok l' ->
  forall t i, Owns l' t i <-> Appended s h t i.
Proof.
  intros s tids h l qg qs m l' Ht Hq H Hf t i.
  pose proof (freeze_ok_cond _ _ _ _ _ _ _ _ H Hq Hf) as Hc.
  destruct (freeze_after_appends s tids h l qg qs m H Hq Ht Hc) as [l2 [G1 [G2 [G3 [G4 [G5 _]]]]]].
  assert (l2 = l') by congruence. subst l2.
  rewrite frozen_owns by auto. rewrite G3.
  change (owned (sp_dims s) (rl_trs l') t i <-> Appended s h t i).
  rewrite <- owned_appended.
  destruct (Hq (map app_trg h)) as [P S].
  rewrite (owned_key _ _ _ _ _ G5).
  destruct m; simpl.
  - destruct (Hc eq_refl) as [_ Hd]. rewrite Hd.
    destruct (qg (map app_trg h)) as [|x r] eqn:E.
    + apply Permutation_sym, Permutation_nil in P. rewrite P. tauto.
    + rewrite merge_loop_owned by auto. symmetry. apply owned_perm; auto.
  - symmetry. apply owned_perm; auto.
Qed.

Lemma freeze_total_gen : forall s tids h l qg qs m,
  0 <= tids -> is_qsort trgen_cmp qg -> run_appends s tids h = Ok l ->
  (m = true -> h <> [] /\ sp_dims s = 1%nat) ->
  exists l', rl_freeze qg qs l m = Ok l'.
Proof.
  intros s tids h l qg qs m Ht Hq H Hc.
  destruct (freeze_after_appends s tids h l qg qs m H Hq Ht Hc) as [l2 [G1 _]]. eauto.
Qed.

Lemma Forall_transfer (P : trg -> Prop) :
  (forall a a', key a = key a' -> P a -> P a') ->
  forall l l', map key l = map key l' -> Forall P l -> Forall P l'.
Proof.
  intros HR. induction l as [|x l IH]; intros [|y l'] K F; simpl in *; try discriminate; auto.
  injection K as K1 K2 K3 K4. inversion F as [|? ? F1 F2]; subst.
  constructor; [|apply IH; auto]. eapply HR; [|exact F1]. unfold key. congruence.
Qed.

Lemma sorted_transfer (R : trg -> trg -> Prop) :
  (forall a b a' b', key a = key a' -> key b = key b' -> R a b -> R a' b') ->
  forall l l', map key l = map key l' -> StronglySorted R l -> StronglySorted R l'.
Proof.
  intros HR. induction l as [|x l IH]; intros [|y l'] K S; simpl in *; try discriminate; auto.
  injection K as K1 K2 K3 K4. inversion S as [|? ? S1 S2]; subst.
  constructor; [apply IH; auto|].
  eapply (Forall_transfer (R y)); [|exact K4|].
  - intros a a' Ha. apply HR; auto.
  - eapply Forall_impl; [|exact S2]. intros a. apply HR; auto. unfold key. congruence.
Qed.

(* C05: enumeration *)
Definition akey (a : appcall) : box * Z := (r_box (a_range a), a_tag a).
Definition xkey (x : trg) : box * Z := (t_box x, t_tag x).

Lemma mine_key t l l' : map key l = map key l' -> map key (mine t l) = map key (mine t l').
Proof.
  unfold mine. revert l'. induction l as [|x l IH]; intros [|y l'] H; simpl in *; try discriminate; auto.
  inversion H. rewrite H1. destruct (t_task y =? t); simpl; rewrite (IH l'); auto.
  unfold key in *. congruence.
Qed.

Lemma mine_perm t l l' : Permutation l l' -> Permutation (mine t l) (mine t l').
Proof.
  unfold mine. induction 1; simpl; auto.
  - destruct (t_task x =? t); auto.
  - destruct (t_task x =? t), (t_task y =? t); auto. constructor.
  - eapply perm_trans; eauto.
Qed.

Lemma mine_sorted (P : trg -> trg -> Prop) t l : StronglySorted P l -> StronglySorted P (mine t l).
Proof.
  unfold mine. induction 1; simpl; [constructor|]. destruct (t_task a =? t); auto.
  constructor; auto. rewrite Forall_forall in *. intros x Hx. apply filter_In in Hx. apply H0; tauto.
Qed.

Lemma map_key_xkey l l' : map key l = map key l' -> map xkey l = map xkey l'.
Proof.
  revert l'. induction l as [|x l IH]; intros [|y l'] H; simpl in *; try discriminate; auto.
  inversion H. unfold xkey at 1 3. f_equal; [congruence|auto].
Qed.

Lemma sorted_keys (P : box * Z -> box * Z -> Prop) l :
  StronglySorted (fun a b => P (xkey a) (xkey b)) l -> StronglySorted P (map xkey l).
Proof. induction 1; simpl; constructor; auto. apply Forall_map. auto. Qed.

Lemma enumeration_gen : forall s tids h l qg qs l' t,
  is_qsort trgen_cmp qg -> run_appends s tids h = Ok l ->
  rl_freeze qg qs l false = Ok l' -> 0 <= t < tids ->
  exists xs : list trg,
    rl_tidrangecount l' t = Ok (Z.of_nat (length xs)) /\
    (forall n, rl_tidrange l' t n = Ok (if n <? 0 then None else nth_error xs (Z.to_nat n))) /\
    Permutation (map xkey xs) (map akey (filter (fun a => a_task a =? t) h)) /\
    (forall x, In x xs -> t_task x = t) /\
    StronglySorted (fun a b => t_tag a < t_tag b \/
        t_tag a = t_tag b /\ i0 (b_from (t_box a)) <= i0 (b_from (t_box b))) xs.
Proof.
  intros s tids h l qg qs l' t Hq H Hf Ht.
  destruct (freeze_after_appends s tids h l qg qs false H Hq) as [l2 [G1 [G2 [G3 [G4 [G5 _]]]]]]; [lia|discriminate|].
  assert (l2 = l') by congruence. subst l2.
  exists (mine t (rl_trs l')). rewrite <- G4 in Ht.
  split; [apply frozen_tidrangecount; auto|].
  split; [intros n; apply frozen_tidrange; auto|].
  destruct (Hq (map app_trg h)) as [P S].
  split; [|split].
  - rewrite (map_key_xkey _ _ (mine_key t _ _ G5)).
    rewrite <- (Permutation_map xkey (mine_perm t _ _ P)).
    assert (E : map xkey (mine t (map app_trg h)) = map akey (filter (fun a => a_task a =? t) h)).
    { clear. induction h as [|a h IH]; simpl; auto. unfold mine in *. simpl.
      destruct (a_task a =? t); simpl; rewrite IH; auto. }
    rewrite E. reflexivity.
  - intros x Hx. apply filter_In in Hx. lia.
  - pose proof (mine_sorted _ t _ S) as S2. simpl in G5.
    assert (T : forall x, In x (mine t (rl_trs l')) -> t_task x = t).
    { intros x Hx. apply filter_In in Hx. lia. }
    pose proof (mine_key t _ _ G5) as K.
    clear - S2 K.
    assert (S3 : StronglySorted (fun a b => t_tag a < t_tag b \/
        t_tag a = t_tag b /\ i0 (b_from (t_box a)) <= i0 (b_from (t_box b))) (mine t (qg (map app_trg h)))).
    { assert (T : forall x, In x (mine t (qg (map app_trg h))) -> t_task x = t).
      { intros x Hx. apply filter_In in Hx. lia. }
      clear K. induction S2; constructor; auto.
      - apply IHS2. intros; apply T; now right.
      - rewrite Forall_forall in *. intros x Hx. specialize (H x Hx). rewrite trgen_cmp_le in H.
        rewrite (T a (or_introl eq_refl)), (T x (or_intror Hx)) in H. lia. }
    eapply sorted_transfer; [|symmetry; exact K|exact S3].
    intros a b a' b' Ka Kb. apply key_eq in Ka. apply key_eq in Kb.
    destruct Ka as [_ [Ka1 Ka2]], Kb as [_ [Kb1 Kb2]]. rewrite Ka1, Ka2, Kb1, Kb2. auto.
Qed.

(* C06 *)
Lemma sep_key l : forall l', map key l = map key l' -> StronglySorted sep l -> StronglySorted sep l'.
Proof.
  apply sorted_transfer. intros a b a' b' Ka Kb. apply key_eq in Ka. apply key_eq in Kb.
  destruct Ka as [Ka0 [Ka1 Ka2]], Kb as [Kb0 [Kb1 Kb2]]. unfold sep. rewrite Ka0, Kb0, Ka1, Ka2, Kb1, Kb2. auto.
Qed.

Lemma merge_separates : forall s tids h l qg qs l',
  0 <= tids -> is_qsort trgen_cmp qg -> run_appends s tids h = Ok l ->
  rl_freeze qg qs l true = Ok l' ->
  forall t n m x y, 0 <= t < tids -> n < m ->
    rl_tidrange l' t n = Ok (Some x) -> rl_tidrange l' t m = Ok (Some y) ->
    t_tag x = t_tag y -> i0 (b_to (t_box x)) < i0 (b_from (t_box y)).
Proof.
  intros s tids h l qg qs l' Hti Hq H Hf t n m x y Ht Hnm Hx Hy Etag.
  pose proof (freeze_ok_cond _ _ _ _ _ _ _ _ H Hq Hf) as Hc.
  destruct (freeze_after_appends s tids h l qg qs true H Hq Hti Hc) as [l2 [G1 [G2 [G3 [G4 [G5 _]]]]]].
  assert (l2 = l') by congruence. subst l2. rewrite <- G4 in Ht.
  rewrite frozen_tidrange in Hx, Hy by auto.
  destruct (n <? 0) eqn:E1; [discriminate|]. destruct (m <? 0) eqn:E2; [discriminate|].
  destruct (Hq (map app_trg h)) as [P S]. simpl in G5.
  assert (Sp : StronglySorted sep (rl_trs l')).
  { eapply sep_key; [symmetry; exact G5|]. destruct (qg (map app_trg h)); [constructor|].
    apply merge_loop_sep; auto. }
  pose proof (mine_sorted _ t _ Sp) as Sp2.
  inversion Hx. inversion Hy.
  assert (In x (mine t (rl_trs l'))) by (eapply nth_error_In; eauto).
  assert (In y (mine t (rl_trs l'))) by (eapply nth_error_In; eauto).
  apply filter_In in H0. apply filter_In in H3.
  eapply (StronglySorted_nth _ _ Sp2 (Z.to_nat n) (Z.to_nat m)); eauto; lia.
Qed.

(* C07: map numbers *)
Fixpoint numbered (m lt : Z) (l : list trg) : Prop :=
  match l with
  | [] => True
  | x :: l' =>
    t_mapNo x = (if (t_tag x =? 0) || negb (t_tag x =? lt) then m + 1 else m) /\
    numbered (t_mapNo x) (if (t_tag x =? 0) || negb (t_tag x =? lt) then t_tag x else lt) l'
  end.

Lemma uo_inner_numbered task : forall l m lt a b,
  uo_inner task m lt l = Ok (a, b) -> numbered m lt a /\ Forall (fun x => t_task x = task) a.
Proof.
  induction l as [|x l IH]; simpl; intros m lt a b H.
  - inversion H; subst. split; simpl; auto.
  - destruct (t_task x >? task) eqn:E; [inversion H; subst; split; simpl; auto|].
    apply cassert_ok in H. destruct H as [H1 H]. apply obind_ok in H. destruct H as [[a' b'] [H2 H]].
    inversion H; subst. apply IH in H2. destruct H2 as [H2 H3]. simpl. split.
    + split; auto.
    + constructor; simpl; auto. lia.
Qed.

Lemma mine_app t l1 l2 : mine t (l1 ++ l2) = mine t l1 ++ mine t l2.
Proof. apply filter_app. Qed.
Lemma mine_all t l : Forall (fun x => t_task x = t) l -> mine t l = l.
Proof. unfold mine. induction 1; simpl; auto. replace (t_task x =? t) with true by lia. congruence. Qed.
Lemma mine_none t l : Forall (fun x => t_task x <> t) l -> mine t l = [].
Proof. unfold mine. induction 1; simpl; auto. replace (t_task x =? t) with false by lia. auto. Qed.

Lemma uo_tasks_numbered n : forall task off l offs out r,
  uo_tasks n task off l = Ok (offs, out, r) ->
  Forall (fun x => task <= t_task x < task + Z.of_nat n) out /\
  forall t, numbered (-1) (-1) (mine t out).
Proof.
  induction n as [|n IH]; simpl; intros task off l offs out r H.
  - inversion H; subst. split; auto. intros t. simpl. auto.
  - apply obind_ok in H. destruct H as [[a b] [H1 H]].
    apply obind_ok in H. destruct H as [[[offs' out'] r'] [H2 H]]. simpl in *.
    inversion H; subst; clear H.
    apply uo_inner_numbered in H1. destruct H1 as [N1 N2].
    apply IH in H2. destruct H2 as [M1 M2]. split.
    + apply Forall_app. split.
      * eapply Forall_impl; [|exact N2]. simpl. intros; lia.
      * eapply Forall_impl; [|exact M1]. simpl. intros; lia.
    + intros t. rewrite mine_app. destruct (Z.eq_dec t task).
      * subst. rewrite (mine_all task a N2), (mine_none task out').
        -- rewrite app_nil_r. auto.
        -- eapply Forall_impl; [|exact M1]. simpl. intros; lia.
      * rewrite (mine_none t a); [apply M2|].
        eapply Forall_impl; [|exact N2]. simpl. intros; lia.
Qed.

Definition tagle (a b : trg) : Prop := t_tag a <= t_tag b.

Lemma numbered_from m lt l :
  numbered m lt l -> StronglySorted tagle l -> Forall (fun x => lt <= t_tag x) l ->
  Forall (fun x => m <= t_mapNo x /\ (t_mapNo x = m <-> t_tag x = lt /\ t_tag x <> 0)) l.
Proof.
  revert m lt. induction l as [|x l IH]; simpl; intros m lt HN Hs Hf; [constructor|]; destruct HN as [H1 H2]; constructor.
  - destruct ((t_tag x =? 0) || negb (t_tag x =? lt)) eqn:E; lia.
  - inversion Hs; subst. inversion Hf; subst.
    assert (E' : (if (t_tag x =? 0) || negb (t_tag x =? lt) then t_tag x else lt) = t_tag x).
    { destruct ((t_tag x =? 0) || negb (t_tag x =? lt)) eqn:E; lia. }
    rewrite E' in H2. apply IH in H2; auto.
    rewrite Forall_forall in *. intros y Hy. specialize (H2 y Hy). specialize (H4 y Hy).
    unfold tagle in H4.
    destruct ((t_tag x =? 0) || negb (t_tag x =? lt)) eqn:E; lia.
Qed.

Lemma numbered_pairs l : forall m lt,
  numbered m lt l -> StronglySorted tagle l -> 
  StronglySorted (fun a b => t_mapNo a <= t_mapNo b /\
     (t_mapNo a = t_mapNo b <-> t_tag a = t_tag b /\ t_tag a <> 0)) l.
Proof.
  induction l as [|x l IH]; simpl; intros m lt HN Hs; [constructor|]; destruct HN as [H1 H2]; constructor.
  - inversion Hs; subst. eapply IH; eauto.
  - inversion Hs; subst.
    assert (E' : (if (t_tag x =? 0) || negb (t_tag x =? lt) then t_tag x else lt) = t_tag x).
    { destruct ((t_tag x =? 0) || negb (t_tag x =? lt)) eqn:E; lia. }
    rewrite E' in H2. apply numbered_from in H2; auto.
    eapply Forall_impl; [|exact H2]. simpl. intros a Ha. lia.
Qed.

Lemma numbered_step l : forall m lt n x y,
  numbered m lt l -> nth_error l n = Some x -> nth_error l (S n) = Some y ->
  t_mapNo y = t_mapNo x \/ t_mapNo y = t_mapNo x + 1.
Proof.
  induction l as [|z l IH]; intros m lt n x y HN Hx Hy; [destruct n; discriminate|]; destruct HN as [H1 H2].
  destruct n; simpl in Hx, Hy.
  - inversion Hx; subst. destruct l as [|w l]; simpl in *; [discriminate|]. inversion Hy; subst.
    destruct H2 as [H2 _]. destruct (_ || _) in H2; lia.
  - eapply IH; eauto.
Qed.

Lemma map_numbers_gen : forall s tids h l qg qs m l',
  0 <= tids -> is_qsort trgen_cmp qg -> run_appends s tids h = Ok l ->
  rl_freeze qg qs l m = Ok l' ->
  (forall a, In a h -> a_tag a <> -1) ->
  forall t, 0 <= t < tids ->
  (forall x, rl_tidrange l' t 0 = Ok (Some x) -> t_mapNo x = 0) /\
  (forall n x y, rl_tidrange l' t n = Ok (Some x) -> rl_tidrange l' t (n + 1) = Ok (Some y) ->
     t_mapNo y = t_mapNo x \/ t_mapNo y = t_mapNo x + 1) /\
  (forall n k x y, n <> k -> rl_tidrange l' t n = Ok (Some x) -> rl_tidrange l' t k = Ok (Some y) ->
     (t_mapNo x = t_mapNo y <-> t_tag x = t_tag y /\ t_tag x <> 0)).
Proof.
  intros s tids h l qg qs m l' Hti Hq H Hf Htag t Ht.
  pose proof (freeze_ok_cond _ _ _ _ _ _ _ _ H Hq Hf) as Hc.
  destruct (freeze_after_appends s tids h l qg qs m H Hq Hti Hc) as [l2 [G1 [G2 [G3 [G4 [G5 [offs G6]]]]]]].
  assert (l2 = l') by congruence. subst l2. rewrite <- G4 in Ht.
  set (merged := if m then match qg (map app_trg h) with [] => [] | h :: t => merge_loop h t end else qg (map app_trg h)) in *.
  destruct (uo_tasks_numbered _ _ _ _ _ _ _ G6) as [_ N]. specialize (N t).
  destruct (Hq (map app_trg h)) as [P S].
  assert (Sm : StronglySorted trle merged).
  { unfold merged. destruct m; auto. destruct (qg (map app_trg h)); [constructor|].
    apply merge_loop_sorted; auto. }
  (* tags of the result come from the appends *)
  assert (Tm : Forall (fun x => t_tag x <> -1) merged).
  { assert (T0 : Forall (fun x => t_tag x <> -1) (qg (map app_trg h))).
    { eapply Forall_perm; [exact P|]. apply Forall_map. apply Forall_forall. intros a Ha. simpl. auto. }
    unfold merged. destruct m; auto. destruct (qg (map app_trg h)) as [|x r]; auto.
    clear - T0. revert x T0. induction r as [|s r IH]; intros x T0; simpl; auto.
    inversion T0; subst. inversion H2; subst.
    destruct (_ || _); [constructor; auto|]. destruct (_ <? _); apply IH; constructor; auto. }
  set (M := mine t (rl_trs l')) in *.
  assert (SM : StronglySorted tagle M /\ Forall (fun x => t_tag x <> -1) M).
  { pose proof (mine_key t _ _ G5) as K. fold M in K.
    assert (S1 : StronglySorted tagle (mine t merged)).
    { pose proof (mine_sorted _ t _ Sm) as S1.
      assert (T : forall x, In x (mine t merged) -> t_task x = t).
      { intros x Hx. apply filter_In in Hx. lia. }
      clear - S1 T. induction S1; constructor.
      - apply IHS1. intros; apply T; now right.
      - rewrite Forall_forall in *. intros x Hx. specialize (H x Hx). unfold trle in H. rewrite trgen_cmp_le in H.
        rewrite (T a (or_introl eq_refl)), (T x (or_intror Hx)) in H. unfold tagle. lia. }
    assert (S2 : Forall (fun x => t_tag x <> -1) (mine t merged)).
    { rewrite Forall_forall in *. intros x Hx. apply filter_In in Hx. apply Tm; tauto. }
    split.
    - eapply sorted_transfer; [|symmetry; exact K|exact S1].
      intros a b a' b' Ka Kb. apply key_eq in Ka. apply key_eq in Kb. unfold tagle.
      destruct Ka as [_ [_ Ka2]], Kb as [_ [_ Kb2]]. rewrite Ka2, Kb2. auto.
    - eapply Forall_transfer; [|symmetry; exact K|exact S2].
      intros a a' Ka. apply key_eq in Ka. destruct Ka as [_ [_ Ka2]]. rewrite Ka2. auto. }
  destruct SM as [SM TM].
  pose proof (numbered_pairs _ _ _ N SM) as NP.
  split; [|split].
  - intros x Hx. rewrite frozen_tidrange in Hx by auto. replace (0 <? 0) with false in Hx by lia.
    inversion Hx. fold M in H1. destruct M as [|z M']; simpl in H1; [discriminate|].
    change (Z.to_nat 0) with 0%nat in H1. simpl in H1. inversion H1; subst. inversion TM; subst.
    destruct N as [N _]. replace ((t_tag x =? 0) || negb (t_tag x =? -1)) with true in N by lia. lia.
  - intros n x y Hx Hy. rewrite frozen_tidrange in Hx, Hy by auto. fold M in Hx, Hy.
    destruct (n <? 0) eqn:E1; [discriminate|]. destruct (n + 1 <? 0) eqn:E2; [lia|].
    inversion Hx. inversion Hy.
    eapply (numbered_step M); eauto. replace (Datatypes.S (Z.to_nat n)) with (Z.to_nat (n + 1)) by lia. auto.
  - assert (G : forall n k x y, n < k -> rl_tidrange l' t n = Ok (Some x) -> rl_tidrange l' t k = Ok (Some y) ->
     (t_mapNo x = t_mapNo y <-> t_tag x = t_tag y /\ t_tag x <> 0)).
    { intros n k x y Hnk Hx Hy. rewrite frozen_tidrange in Hx, Hy by auto. fold M in Hx, Hy.
      destruct (n <? 0) eqn:E1; [discriminate|]. destruct (k <? 0) eqn:E2; [lia|].
      inversion Hx. inversion Hy.
      apply (StronglySorted_nth _ _ NP (Z.to_nat n) (Z.to_nat k)); auto. lia. }
    intros n k x y Hnk Hx Hy. destruct (Z_lt_dec n k).
    + eapply G; eauto.
    + assert (L : k < n) by lia. specialize (G k n y x L Hy Hx).
      split; intros K; [symmetry in K; apply G in K|]; [|symmetry; apply G];
      destruct K as [K1 K2]; split; congruence.
Qed.
