(* C17: filtered partitioner runs *)
From Coq Require Import ZArith List Bool Lia Permutation Sorted ZifyBool ZifyNat.
From Verif Require Import Base ListFacts Model_Space Spec_Space Proof_Space Model_RangeList Spec_RangeList
  Proof_RangeList Proof_RangeList2 Proof_RangeList3 Proof_RangeList4 Proof_RangeList5 Proof_Cover
  Model_Partitioner Spec_Partitioner Proof_Partitioner Proof_Partitioner2.
Import ListNotations.
Open Scope Z_scope.

(* ---- leaving out calls ---- *)

Record weaker (l l' : rlist) : Prop := {
  wk_space : rl_space l' = rl_space l;
  wk_tids : rl_tids l' = rl_tids l;
  wk_tss : rl_tss1d l = None -> rl_tss1d l' = None;
  wk_tr : rl_trange l = None -> rl_trange l' = None }.

Lemma weaker_step l l' c l1 : weaker l l' -> do_append None l c = Ok l1 ->
  weaker l1 l' /\ exists l1', do_append None l' c = Ok l1' /\ weaker l1 l1'.
Proof.
  intros [W1 W2 W3 W4] H. destruct c as [t r g|t x]; simpl in *.
  - unfold rl_append in *. destruct (r_space r) as [rs|]; [|discriminate].
    apply cassert_ok in H. destruct H as [H1 H]. apply cassert_ok in H. destruct H as [H2 H].
    apply cassert_ok in H. destruct H as [H3 H]. apply obind_ok in H. destruct H as [w [H4 H]].
    apply cassert_ok in H. destruct H as [H5 H]. injection H as <-.
    rewrite W1, W2, H1, H3, H4. destruct (rl_tss1d l) eqn:E; [discriminate|]. rewrite (W3 eq_refl). simpl. rewrite H5. simpl.
    split; [constructor; simpl; auto; discriminate|]. eexists. split; [reflexivity|]. constructor; simpl; auto; discriminate.
  - unfold rl_append_single1d in *.
    apply cassert_ok in H. destruct H as [H1 H]. apply cassert_ok in H. destruct H as [H2 H].
    apply cassert_ok in H. destruct H as [H3 H]. injection H as <-.
    rewrite W1, W2, H2, H3. destruct (rl_trange l) eqn:E; [discriminate|]. rewrite (W4 eq_refl). simpl.
    split; [constructor; simpl; auto; discriminate|]. eexists. split; [reflexivity|]. constructor; simpl; auto; discriminate.
Qed.

Lemma weaker_run f : forall h l l' l1, weaker l l' -> ofold (do_append None) h l = Ok l1 ->
  exists l1', ofold (do_append None) (filter f h) l' = Ok l1'.
Proof.
  induction h as [|c h IH]; intros l l' l1 Wk H; simpl in *; [eauto|].
  apply obind_ok in H. destruct H as [l2 [H1 H2]].
  destruct (weaker_step _ _ _ _ Wk H1) as [W1 [l2' [R W2]]].
  destruct (f c); simpl; [rewrite R; simpl|]; eauto.
Qed.

Lemma run_calls_filter s tids f h l : run_calls s tids h = Ok l -> exists l', run_calls s tids (filter f h) = Ok l'.
Proof. unfold run_calls. intros H. eapply weaker_run; [|exact H]. constructor; auto. Qed.

Lemma run_filter_conv f (g : acall -> bool) : forall cs l l',
  (forall c, In c cs -> filter_call f (match c with ACrange t _ _ => t | ACidx t _ => t end)
          (match c with ACrange _ r _ => r_box r | ACidx _ x => mkBox (mkIdx x 0 0) (mkIdx (x + 1) 0 0) end) = Ok (g c)) ->
  ofold (do_append None) (filter g cs) l = Ok l' -> ofold (do_append (Some f)) cs l = Ok l'.
Proof.
  induction cs as [|c cs IH]; intros l l' K H; [exact H|]. cbn [ofold].
  assert (E : do_append (Some f) l c = if g c then do_append None l c else Ok l).
  { pose proof (K c (or_introl eq_refl)) as Kc. destruct c as [t r tg|t x]; cbn [do_append]; rewrite Kc; cbn [obind]; destruct (g _); reflexivity. }
  rewrite E. simpl in H. destruct (g c).
  - cbn [ofold] in H. apply obind_ok in H. destruct H as [l1 [H1 H2]]. rewrite H1. cbn [obind].
    apply IH; auto. intros; apply K; right; auto.
  - cbn [obind]. apply IH; auto. intros; apply K; right; auto.
Qed.

(* freezing what is left *)
Lemma freeze_filter q q' s tids g cs l0 m l : good_sorts q -> good_sorts q' -> valid_dims (sp_dims s) -> 0 <= tids ->
  run_calls s tids cs = Ok l0 -> rl_freeze (q_gen q) (q_si q) l0 m = Ok l ->
  m = false \/ filter g cs <> [] ->
  exists l0' l', run_calls s tids (filter g cs) = Ok l0' /\ rl_freeze (q_gen q') (q_si q') l0' m = Ok l'.
Proof.
  intros Hq Hq' Hd Ht R Fz Hm. destruct (run_calls_filter s tids g cs l0 R) as [l0' R'].
  destruct (run_calls_kind _ _ _ _ R') as [[F' A]|[N [F' A]]].
  - destruct Hq' as [Q1 [Q2 Q3]].
    destruct (freeze_after_appends s tids _ l0' (q_gen q') (q_si q') m A Q1 Ht) as [l' [G1 _]]; [|eauto].
    intros ->. destruct Hm as [Hm|Hm]; [discriminate|]. split; [destruct (filter g cs); simpl; congruence|].
    destruct (run_calls_kind _ _ _ _ R) as [[Fr Ar]|[Nr [Fr Ar]]].
    + destruct Hq as [Q1' _]. destruct (freeze_ok_cond _ _ _ _ _ _ _ _ Ar Q1' Fz eq_refl); auto.
    + destruct (calls_freeze q s tids cs l0 true l Hq Hd Ht R Fz) as [_ [_ [_ [K _]]]].
      apply K. destruct cs as [|c cs]; [congruence|]. left. inversion Fr; auto.
  - assert (Hd1 : sp_dims s = 1%nat).
    { destruct (calls_freeze q s tids cs l0 m l Hq Hd Ht R Fz) as [_ [_ [_ [K _]]]].
      apply K. destruct (filter g cs) as [|c r] eqn:E; [congruence|]. assert (Hc : In c (filter g cs)) by (rewrite E; left; auto).
      apply filter_In in Hc. apply Exists_exists. exists c. split; [tauto|]. inversion F'; auto. }
    destruct Hq' as [Q1 [Q2 Q3]].
    destruct (freeze_singles_ok s tids _ l0' (q_gen q') (q_si q') m A Q2) as [l' [x [r [G1 _]]]]; auto; [|eauto].
    destruct (filter g cs); simpl; congruence.
Qed.

(* ranges of a run without merging *)
Lemma has_range_calls q s tids cs l0 l : good_sorts q -> valid_dims (sp_dims s) -> 0 <= tids ->
  run_calls s tids cs = Ok l0 -> rl_freeze (q_gen q) (q_si q) l0 false = Ok l ->
  Forall (fun c => is_range c = true) cs ->
  forall t b g, HasRange l t b g <-> exists r, In (ACrange t r g) cs /\ r_box r = b.
Proof.
  intros Hq Hd Ht R Fz Fr t b g.
  destruct (run_calls_kind _ _ _ _ R) as [[_ A]|[N [F' _]]].
  2:{ exfalso. destruct cs as [|c cs]; [congruence|]. inversion Fr. inversion F'. congruence. }
  destruct Hq as [Q1 _].
  assert (FL : FrozenList l) by (eapply FL_gen; eauto).
  assert (Tl : rl_tids l = tids).
  { destruct (freeze_after_appends s tids _ l0 (q_gen q) (q_si q) false A Q1 Ht) as [l' [G1 [G2 [G3 [G4 _]]]]]; [discriminate|]. congruence. }
  split.
  - intros [n [x [E [Hb Hg]]]].
    destruct (frozen_range_in _ _ _ _ FL E) as [Hx Htx].
    assert (Hr : 0 <= t < tids).
    { destruct (FrozenList_Frozen _ FL) as [F' _]. pose proof (fz_tasks l F') as T. rewrite Forall_forall in T. specialize (T x Hx). lia. }
    destruct (enumeration_gen _ _ _ _ _ _ _ t Q1 A Fz Hr) as [xs [E1 [E2 [E3 [E4 _]]]]].
    rewrite E2 in E. destruct (n <? 0); [discriminate|]. injection E as E. apply nth_error_In in E.
    apply (in_map xkey) in E. apply (Permutation_in _ E3) in E. apply in_map_iff in E. destruct E as [a [Ka Ha]].
    apply filter_In in Ha. destruct Ha as [Ha Hta]. apply in_map_iff in Ha. destruct Ha as [c [<- Hc]].
    rewrite Forall_forall in Fr. specialize (Fr c Hc). destruct c as [t' r g'|]; [|discriminate].
    unfold akey, xkey in Ka. simpl in *. injection Ka as K1 K2. exists r. split; [|congruence].
    replace t with t' by lia. replace g with g' by congruence. auto.
  - intros [r [Hc Hb]].
    destruct (run_appends_ok _ _ _ _ A) as [A1 [A2 [A3 [A4 [A5 [A6 [A7 A8]]]]]]]. rewrite Forall_forall in A8.
    pose proof (A8 _ (in_map to_app _ _ Hc)) as [Hr _]. simpl in Hr.
    destruct (enumeration_gen _ _ _ _ _ _ _ t Q1 A Fz Hr) as [xs [E1 [E2 [E3 [E4 _]]]]].
    assert (K : In (akey (to_app (ACrange t r g))) (map akey (filter (fun a => a_task a =? t) (map to_app cs)))).
    { apply in_map. apply filter_In. split; [apply in_map; auto|]. simpl. lia. }
    apply (Permutation_in _ (Permutation_sym E3)) in K. apply in_map_iff in K. destruct K as [x [Kx Hx]].
    apply In_nth_error in Hx. destruct Hx as [n Hx]. exists (Z.of_nat n), x. rewrite E2.
    replace (Z.of_nat n <? 0) with false by lia. rewrite Nat2Z.id, Hx. split; auto.
    unfold akey, xkey in Kx. simpl in Kx. injection Kx as K1 K2. split; congruence.
Qed.

(* a filter which does not fail and keeps the calls [g] *)
Lemma filtered_run q q' pr p sf g l :
  good_sorts q -> good_sorts q' -> valid_dims (sp_dims (pp_space p)) -> 0 <= g_size (pp_group p) ->
  run_partitioner q pr p None = Ok l ->
  (forall c, filter_call sf (match c with ACrange t _ _ => t | ACidx t _ => t end)
          (match c with ACrange _ r _ => r_box r | ACidx _ x => mkBox (mkIdx x 0 0) (mkIdx (x + 1) 0 0) end) = Ok (g c)) ->
  exists cs, pr_run pr p = Ok cs /\
    (forall t i, Owns l t i <-> Given (sp_dims (pp_space p)) cs t i) /\
    (pr_merge pr = false -> Forall (fun c => is_range c = true) cs ->
       forall t b tg, HasRange l t b tg <-> exists r, In (ACrange t r tg) cs /\ r_box r = b) /\
    (pr_merge pr = false \/ filter g cs <> [] ->
      exists l', run_partitioner q' pr p (Some sf) = Ok l' /\
      (forall t i, Owns l' t i <-> Given (sp_dims (pp_space p)) (filter g cs) t i) /\
      (pr_merge pr = false -> Forall (fun c => is_range c = true) cs ->
       forall t b tg, HasRange l' t b tg <-> exists r, In (ACrange t r tg) (filter g cs) /\ r_box r = b)).
Proof.
  intros Hq Hq' Hd Hg H K.
  destruct (run_partitioner_ok _ _ _ _ _ Hq Hd Hg H) as [cs [l0 [R1 [R2 [R3 [FL [S1 [T1 [O [_ G]]]]]]]]]].
  simpl in *. exists cs. split; auto. split; auto. split.
  { intros Hm Fr. rewrite Hm in R3. exact (has_range_calls q _ _ _ l0 l Hq Hd Hg R2 R3 Fr). }
  intros Hm.
  destruct (freeze_filter q q' _ _ g _ _ _ _ Hq Hq' Hd Hg R2 R3 Hm) as [l0' [l' [R2' R3']]].
  exists l'. split; [|split].
  - unfold run_partitioner in *. apply cassert_ok in H. destruct H as [-> _]. cbn [cassert]. rewrite R1. cbn [obind].
    rewrite (run_filter_conv sf g cs _ l0'); auto. cbn [obind]. rewrite R3'. cbn [obind]. rewrite andb_false_r. reflexivity.
  - destruct (calls_freeze q' _ _ _ _ _ _ Hq' Hd Hg R2' R3') as [_ [_ [_ [_ O']]]]. auto.
  - intros Hm0 Fr. rewrite Hm0 in R3'. apply (has_range_calls q' _ _ _ l0' l' Hq' Hd Hg R2' R3').
    rewrite Forall_forall in *. intros c Hc. apply filter_In in Hc. apply Fr. tauto.
Qed.

(* ---- own ranges ---- *)

Lemma my_filter q q' pr p l sf :
  good_sorts q -> good_sorts q' -> valid_dims (sp_dims (pp_space p)) -> 0 <= g_size (pp_group p) ->
  0 <= g_myid (pp_group p) ->
  run_partitioner q pr p None = Ok l ->
  rangefilter_set_myfilter rangefilter_new (pp_group p) = Ok sf ->
  pr_merge pr = false \/ (exists i, Owns l (g_myid (pp_group p)) i) ->
  exists l', run_partitioner q' pr p (Some sf) = Ok l' /\
    (forall t i, Owns l' t i <-> t = g_myid (pp_group p) /\ Owns l t i) /\
    (pr_merge pr = false -> (forall cs, pr_run pr p = Ok cs -> Forall (fun c => is_range c = true) cs) ->
      forall t b g, HasRange l' t b g <-> t = g_myid (pp_group p) /\ HasRange l t b g).
Proof.
  intros Hq Hq' Hd Hg Hm H Hsf Hne. simpl in Hsf. injection Hsf as <-.
  set (me := g_myid (pp_group p)) in *.
  destruct (filtered_run q q' pr p (mkRfilter (Some TidFilter) me None None) (fun c => me =? match c with ACrange t _ _ => t | ACidx t _ => t end) l Hq Hq' Hd Hg H
    ltac:(intros c; unfold filter_call; cbn [sf_func sf_tid]; replace (me >=? 0) with true by lia; reflexivity)) as [cs [R1 [O [HR K]]]].
  destruct K as [l' [R [O' HR']]].
  { destruct Hne as [Hne|[i Hi]]; [left; auto|right]. apply O in Hi. destruct Hi as [c [Hc Gc]].
    intros E. assert (Kc : In c []). { rewrite <- E. apply filter_In. split; [exact Hc|]. destruct c; simpl in *; lia. } destruct Kc. }
  exists l'. split; auto. split.
  - intros t i. rewrite O', O. unfold Given. split.
    + intros [c [Hc Gc]]. apply filter_In in Hc. destruct Hc as [Hc E]. split; [destruct c; simpl in *; lia|]. eauto.
    + intros [-> [c [Hc Gc]]]. exists c. split; auto. apply filter_In. split; auto. destruct c; simpl in *; lia.
  - intros Hmg Hr t b g. rewrite (HR' Hmg (Hr _ R1)), (HR Hmg (Hr _ R1)). split.
    + intros [r [Hc Hb]]. apply filter_In in Hc. destruct Hc as [Hc E]. split; [lia|]. eauto.
    + intros [-> [r [Hc Hb]]]. exists r. split; auto. apply filter_In. split; auto. lia.
Qed.

(* ---- intersection with own ranges ---- *)

Section Search.
  Variables (xs : list trg) (p : pfilter).
  Hypothesis Hlen : pf_len p = Z.of_nat (length xs).
  Hypothesis Hpos : 0 < pf_len p.
  Hypothesis Harr : forall k, 0 <= k < pf_len p -> exists x, nth_error xs (Z.to_nat k) = Some x /\ aread (pf_arr p) (pf_base p + k) = Ok x.
  Hypothesis Hasc : forall n m x y, (n <= m)%nat -> nth_error xs n = Some x -> nth_error xs m = Some y ->
    i0 (b_from (t_box x)) <= i0 (b_from (t_box y)) /\ i0 (b_to (t_box x)) <= i0 (b_to (t_box y)).
  Hypothesis Hfrom : forall x, nth_error xs 0 = Some x -> pf_from p = i0 (b_from (t_box x)).
  Hypothesis Hto : forall x, nth_error xs (length xs - 1) = Some x -> pf_to p = i0 (b_to (t_box x)).

  Definition touches (from to : Z) (x : trg) : Prop := from < i0 (b_to (t_box x)) /\ i0 (b_from (t_box x)) < to.

  Lemma elt k : 0 <= k < pf_len p -> exists x, nth_error xs (Z.to_nat k) = Some x.
  Proof. intros H. destruct (Harr k H) as [x [E _]]. eauto. Qed.

  Lemma search_ok from to : from < pf_to p -> pf_from p < to -> forall fuel off1 off2,
    0 <= off1 -> off1 < off2 -> off2 <= pf_len p -> off2 - off1 <= Z.of_nat fuel ->
    (off1 = 0 \/ exists x, nth_error xs (Z.to_nat off1) = Some x /\ i0 (b_to (t_box x)) <= from) ->
    (off2 = pf_len p \/ exists x, nth_error xs (Z.to_nat (off2 - 1)) = Some x /\ from < i0 (b_to (t_box x))) ->
    exists b, idxfilter_search fuel from to p off1 off2 = Ok b /\
      (b = true <-> exists x, In x xs /\ touches from to x).
  Proof.
    intros Hf Ht. induction fuel as [|n IH]; intros off1 off2 H1 H2 H3 H4 I1 I2; [lia|].
    cbn [idxfilter_search]. replace (off1 <? off2) with true by lia.
    set (mid := (off1 + off2) / 2).
    assert (Hm : off1 <= mid < off2) by (unfold mid; split; [apply Z.div_le_lower_bound|apply Z.div_lt_upper_bound]; lia).
    assert (Hm2 : off1 + 1 < off2 -> off1 < mid) by (intros; unfold mid; apply Z.lt_le_trans with (off1 + 1); [lia|]; apply Z.div_le_lower_bound; lia).
    destruct (Harr mid ltac:(lia)) as [x [Ex Rx]]. rewrite Rx. cbn [obind].
    destruct (from >=? i0 (b_to (t_box x))) eqn:C1.
    - (* right half *)
      assert (Hmid : mid + 1 < pf_len p).
      { destruct (Z_lt_dec (mid + 1) (pf_len p)); auto. exfalso.
        assert (mid = pf_len p - 1) by lia.
        pose proof (Hto x) as K. rewrite <- Ex in K. rewrite K in Hf; [lia|]. f_equal. lia. }
      destruct (Harr (mid + 1) ltac:(lia)) as [y [Ey Ry]]. rewrite Z.add_assoc in Ry. rewrite Ry. cbn [obind].
      destruct (to <=? i0 (b_from (t_box y))) eqn:C2.
      + exists false. split; auto. split; [discriminate|]. intros [z [Hz [T1 T2]]]. exfalso.
        apply In_nth_error in Hz. destruct Hz as [k Hk].
        destruct (le_lt_dec k (Z.to_nat mid)) as [L|L].
        * destruct (Hasc _ _ _ _ L Hk Ex). lia.
        * assert (L' : (Z.to_nat (mid + 1) <= k)%nat) by lia. destruct (Hasc _ _ _ _ L' Ey Hk). lia.
      + assert (W : off1 + 1 < off2).
        { destruct (Z_lt_dec (off1 + 1) off2); auto. exfalso. assert (mid = off2 - 1) by lia.
          destruct I2 as [I2|[z [I2 I3]]]; [lia|]. rewrite <- H in I2. rewrite Ex in I2. injection I2 as <-. lia. }
        specialize (Hm2 W). apply IH; auto; try lia. right. exists x. split; auto. lia.
    - destruct (to <=? i0 (b_from (t_box x))) eqn:C2.
      + assert (Hmid : 1 <= mid).
        { destruct (Z_le_dec 1 mid); auto. exfalso. assert (mid = 0) by lia. rewrite H in Ex.
          pose proof (Hfrom x Ex). lia. }
        destruct (Harr (mid - 1) ltac:(lia)) as [y [Ey Ry]].
        replace (pf_base p + (mid - 1)) with (pf_base p + mid - 1) in Ry by lia. rewrite Ry. cbn [obind].
        destruct (from >=? i0 (b_to (t_box y))) eqn:C3.
        * exists false. split; auto. split; [discriminate|]. intros [z [Hz [T1 T2]]]. exfalso.
          apply In_nth_error in Hz. destruct Hz as [k Hk].
          destruct (le_lt_dec (Z.to_nat mid) k) as [L|L].
          -- destruct (Hasc _ _ _ _ L Ex Hk). lia.
          -- assert (L' : (k <= Z.to_nat (mid - 1))%nat) by lia. destruct (Hasc _ _ _ _ L' Hk Ey). lia.
        * assert (W : off1 < mid).
          { destruct (Z_lt_dec off1 mid); auto. exfalso. assert (mid = off1) by lia.
            destruct I1 as [I1|[z [I1 I3]]]; [lia|]. rewrite <- H in I1. rewrite Ex in I1. injection I1 as <-. lia. }
          apply IH; auto; try lia. right. exists y. split; auto. lia.
      + exists true. split; auto. split; auto. intros _. exists x. split; [eapply nth_error_In; eauto|]. unfold touches. lia.
  Qed.

  Lemma check_ok from to : exists b, idxfilter_check from to p = Ok b /\
      (b = true <-> exists x, In x xs /\ touches from to x).
  Proof.
    unfold idxfilter_check. replace (pf_len p >? 0) with true by lia. cbn [cassert].
    destruct (Harr 0 ltac:(lia)) as [x0 [E0 _]]. change (Z.to_nat 0) with 0%nat in E0.
    destruct (elt (pf_len p - 1) ltac:(lia)) as [x1 E1]. replace (Z.to_nat (pf_len p - 1)) with (length xs - 1)%nat in E1 by lia.
    destruct ((from >=? pf_to p) || (to <=? pf_from p)) eqn:C.
    - exists false. split; auto. split; [discriminate|]. intros [z [Hz [T1 T2]]]. exfalso.
      apply In_nth_error in Hz. destruct Hz as [k Hk].
      assert (L : (k <= length xs - 1)%nat) by (assert (k < length xs)%nat by (apply nth_error_Some; congruence); lia).
      destruct (Hasc _ _ _ _ L Hk E1). destruct (Hasc 0%nat k _ _ ltac:(lia) E0 Hk).
      rewrite (Hto _ E1), (Hfrom _ E0) in C. lia.
    - apply search_ok; try lia; auto.
  Qed.
End Search.

(* the filter object *)
Definition pf_for (xs : list trg) (p : pfilter) : Prop :=
  forall from to, exists b, idxfilter_check from to p = Ok b /\ (b = true <-> exists x, In x xs /\ touches from to x).

Definition sf_for (own : list (list trg)) (sf : rfilter) : Prop :=
  match own with
  | [] => sf = rangefilter_new
  | [a] => exists p1, sf = mkRfilter (Some IdxFilter) (-1) (Some p1) None /\ pf_for a p1
  | [a; b] => exists p1 p2, sf = mkRfilter (Some IdxFilter) (-1) (Some p1) (Some p2) /\ pf_for a p1 /\ pf_for b p2
  | _ => False
  end.

Lemma add_filter sf own l me : FrozenList l -> sp_dims (rl_space l) = 1%nat -> 0 <= me < rl_tids l -> Ascending l me ->
  sf_for own sf -> (length own <= 1)%nat ->
  exists sf', rangefilter_add_idxfilter sf l me = Ok sf' /\
    sf_for (match mine me (rl_trs l) with [] => own | xs => own ++ [xs] end) sf'.
Proof.
  intros FL Hd Hme Asc S L. destruct (FrozenList_Frozen _ FL) as [F' _].
  set (xs := mine me (rl_trs l)).
  pose proof (fz_sorted l F') as Ss. pose proof (fz_off l F') as [offs [Ho [Hl Hr]]].
  unfold rangefilter_add_idxfilter. rewrite Ho, Hd. cbn [Nat.eqb cassert].
  replace ((0 <=? me) && (me <? rl_tids l)) with true by lia. cbn [cassert].
  rewrite (Hr me), (Hr (me + 1)) by lia. cbn [obind].
  pose proof (mine_length (rl_trs l) me Ss) as ML. fold xs in ML.
  assert (Nth : forall k, 0 <= k < Z.of_nat (length xs) -> exists x, nth_error xs (Z.to_nat k) = Some x /\
      aread (rl_trs l) (cnt_lt me (rl_trs l) + k) = Ok x).
  { intros k Hk. pose proof (sorted_mine_nth (rl_trs l) me Ss (Z.to_nat k)) as N. fold xs in N.
    rewrite Z2Nat.id in N by lia. replace (k <? cnt_lt (me + 1) (rl_trs l) - cnt_lt me (rl_trs l)) with true in N by lia.
    destruct (nth_error xs (Z.to_nat k)) as [x|] eqn:E.
    - exists x. split; auto. apply aread_ok.
      assert (0 <= cnt_lt me (rl_trs l)) by (unfold cnt_lt; lia). split; [lia|].
      rewrite Z2Nat.inj_add by lia. auto.
    - apply nth_error_None in E. lia. }
  destruct (cnt_lt (me + 1) (rl_trs l) - cnt_lt me (rl_trs l) =? 0) eqn:E.
  { assert (xs = []) by (destruct xs; simpl in *; [auto|lia]). rewrite H. eauto. }
  destruct (Nth 0 ltac:(lia)) as [x0 [E0 R0]]. rewrite Z.add_0_r in R0. rewrite R0. cbn [obind].
  destruct (Nth (Z.of_nat (length xs) - 1) ltac:(lia)) as [x1 [E1 R1]].
  replace (cnt_lt (me + 1) (rl_trs l) - 1) with (cnt_lt me (rl_trs l) + (Z.of_nat (length xs) - 1)) by lia. rewrite R1. cbn [obind].
  set (par := mkPfilter _ _ _ _ _).
  assert (PF : pf_for xs par).
  { intros from to. apply check_ok; cbn [pf_len pf_arr pf_base pf_from pf_to par]; auto; try lia.
    - intros k Hk. destruct (Nth k ltac:(lia)) as [x K]. eauto.
    - intros n m x y Hnm Hx Hy. apply (Asc (Z.of_nat n) (Z.of_nat m)); [lia| |].
      + rewrite (frozen_tidrange l F' me (Z.of_nat n) Hme). replace (Z.of_nat n <? 0) with false by lia. rewrite Nat2Z.id. fold xs. rewrite Hx. auto.
      + rewrite (frozen_tidrange l F' me (Z.of_nat m) Hme). replace (Z.of_nat m <? 0) with false by lia. rewrite Nat2Z.id. fold xs. rewrite Hy. auto.
    - intros x Hx. change (Z.to_nat 0) with 0%nat in E0. rewrite E0 in Hx. injection Hx as <-. reflexivity.
    - intros x Hx. replace (Z.to_nat (Z.of_nat (length xs) - 1)) with (length xs - 1)%nat in E1 by lia. rewrite E1 in Hx. injection Hx as <-. reflexivity. }
  destruct xs as [|x xs'] eqn:Exs; [simpl in *; lia|].
  destruct own as [|a own]; simpl in S.
  - subst sf. eexists. split; [reflexivity|]. simpl. eauto.
  - destruct own as [|b own]; [|simpl in L; lia]. destruct S as [p1 [-> S]].
    eexists. split; [reflexivity|]. simpl. eauto.
Qed.

Lemma sf_for_call own sf t b : own <> [] -> sf_for own sf ->
  exists k, filter_call sf t b = Ok k /\ (k = true <-> exists xs x, In xs own /\ In x xs /\ touches (i0 (b_from b)) (i0 (b_to b)) x).
Proof.
  intros N S. destruct own as [|a [|c [|d own]]]; [congruence| | |contradiction]; simpl in S.
  - destruct S as [p1 [-> P1]]. unfold filter_call. cbn [sf_func]. unfold idxfilter. cbn [sf_p1 sf_p2].
    destruct (P1 (i0 (b_from b)) (i0 (b_to b))) as [b1 [-> E1]]. cbn [obind]. exists b1. split; [destruct b1; auto|].
    rewrite E1. split.
    + intros [x [K1 K2]]. exists a, x. simpl. auto.
    + intros [xs [x [[<-|[]] K]]]. eauto.
  - destruct S as [p1 [p2 [-> [P1 P2]]]]. unfold filter_call. cbn [sf_func]. unfold idxfilter. cbn [sf_p1 sf_p2].
    destruct (P1 (i0 (b_from b)) (i0 (b_to b))) as [b1 [-> E1]]. destruct (P2 (i0 (b_from b)) (i0 (b_to b))) as [b2 [-> E2]].
    cbn [obind]. exists (b1 || b2). split; [destruct b1; auto|]. rewrite orb_true_iff, E1, E2. split.
    + intros [[x [K1 K2]]|[x [K1 K2]]]; [exists a, x|exists c, x]; simpl; auto.
    + intros [xs [x [[<-|[<-|[]]] K]]]; eauto.
Qed.

Definition owns_one (fs : list (rlist * Z)) (i : index) : Prop := exists l me, In (l, me) fs /\ Owns l me i.

Lemma idx_filter q q' pr p l (fs : list (rlist * Z)) :
  good_sorts q -> good_sorts q' -> sp_dims (pp_space p) = 1%nat -> 0 <= g_size (pp_group p) ->
  run_partitioner q pr p None = Ok l ->
  (length fs <= 2)%nat ->
  (forall lo me, In (lo, me) fs -> FrozenList lo /\ rl_space lo = pp_space p /\ 0 <= me < rl_tids lo /\ Ascending lo me) ->
  (exists i, owns_one fs i) ->
  exists sf, ofold (fun sf x => rangefilter_add_idxfilter sf (fst x) (snd x)) fs rangefilter_new = Ok sf /\
    (pr_merge pr = false \/ (exists t i, owns_one fs i /\ Owns l t i) ->
      exists l', run_partitioner q' pr p (Some sf) = Ok l' /\
      (forall t i, Owns l' t i -> Owns l t i) /\
      (forall t i, owns_one fs i -> Owns l t i -> Owns l' t i) /\
      (pr_merge pr = false -> (forall cs, pr_run pr p = Ok cs -> Forall (fun c => is_range c = true) cs) ->
        forall t b g, 
          (HasRange l' t b g -> HasRange l t b g) /\
          (HasRange l t b g -> (exists i, owns_one fs i /\ InBox 1 i b) -> HasRange l' t b g) /\
          (HasRange l' t b g -> NonEmpty 1 b -> (forall lo me, In (lo, me) fs -> NoEmpty lo) ->
             exists i, owns_one fs i /\ InBox 1 i b))).
Proof.
  intros Hq Hq' Hd Hg H Lf Hfs [i0' Hown].
  assert (Hv : valid_dims (sp_dims (pp_space p))) by (rewrite Hd; left; auto).
  (* the filter *)
  assert (SF : forall fs, (length fs <= 2)%nat ->
     (forall lo me, In (lo, me) fs -> FrozenList lo /\ rl_space lo = pp_space p /\ 0 <= me < rl_tids lo /\ Ascending lo me) ->
     exists sf own, ofold (fun sf x => rangefilter_add_idxfilter sf (fst x) (snd x)) fs rangefilter_new = Ok sf /\
       sf_for own sf /\ (forall xs, In xs own <-> (xs <> [] /\ exists lo me, In (lo, me) fs /\ xs = mine me (rl_trs lo)))).
  { clear - Hd. intros fs L K. destruct fs as [|[l1 m1] [|[l2 m2] [|]]]; simpl in L; [| | |lia].
    - exists rangefilter_new, []. split; auto. split; [reflexivity|]. intros xs. split; [intros []|]. intros [_ [lo [me [[] _]]]].
    - destruct (K l1 m1 (or_introl eq_refl)) as [K1 [K2 [K3 K4]]].
      destruct (add_filter rangefilter_new [] l1 m1 K1 ltac:(congruence) K3 K4 eq_refl ltac:(simpl; lia)) as [sf [E S]].
      exists sf. eexists. cbn [ofold fst snd]. rewrite E. split; [reflexivity|]. split; [exact S|].
      intros xs. simpl. destruct (mine m1 (rl_trs l1)) eqn:Em.
      + split; [intros []|]. intros [N [lo [me [[Q|[]] ->]]]]. injection Q as <- <-. congruence.
      + split.
        * intros [<-|[]]. split; [discriminate|]. exists l1, m1. auto.
        * intros [N [lo [me [[Q|[]] ->]]]]. injection Q as <- <-. left; auto.
    - destruct (K l1 m1 (or_introl eq_refl)) as [K1 [K2 [K3 K4]]].
      destruct (K l2 m2 (or_intror (or_introl eq_refl))) as [J1 [J2 [J3 J4]]].
      destruct (add_filter rangefilter_new [] l1 m1 K1 ltac:(congruence) K3 K4 eq_refl ltac:(simpl; lia)) as [sf [E S]].
      destruct (add_filter sf _ l2 m2 J1 ltac:(congruence) J3 J4 S ltac:(destruct (mine m1 (rl_trs l1)); simpl; lia)) as [sf2 [E2 S2]].
      exists sf2. eexists. cbn [ofold fst snd]. rewrite E. cbn [obind]. rewrite E2. split; [reflexivity|]. split; [exact S2|].
      intros xs. simpl. split.
      + intros Hx. assert (Hx' : (xs <> [] /\ xs = mine m1 (rl_trs l1)) \/ (xs <> [] /\ xs = mine m2 (rl_trs l2))).
        { destruct (mine m1 (rl_trs l1)), (mine m2 (rl_trs l2)); simpl in Hx;
            repeat match goal with H : _ \/ _ |- _ => destruct H end; try contradiction; subst;
            first [left; split; [discriminate|reflexivity]|right; split; [discriminate|reflexivity]]. }
        destruct Hx' as [[N ->]|[N ->]]; split; auto; [exists l1, m1|exists l2, m2]; auto.
      + intros [N [lo [me [[Q|[Q|[]]] ->]]]]; injection Q as <- <-;
        destruct (mine m1 (rl_trs l1)), (mine m2 (rl_trs l2)); simpl; auto; congruence. }
  destruct (SF fs Lf Hfs) as [sf [own [E [S Hin]]]]. clear SF. exists sf. split; auto. intros Hne.
  assert (Own_in : forall i, owns_one fs i <-> exists xs x, In xs own /\ In x xs /\ i0 (b_from (t_box x)) <= i0 i < i0 (b_to (t_box x))).
  { intros i. split.
    - intros [lo [me [Hl Ho]]]. destruct (Hfs _ _ Hl) as [K1 [K2 [K3 K4]]]. apply owns_iff_trs in Ho; auto.
      destruct Ho as [x [Hx [Hm Hb]]]. rewrite K2, Hd in Hb. unfold InBox in Hb.
      assert (Hx' : In x (mine me (rl_trs lo))) by (apply filter_In; split; auto; lia).
      exists (mine me (rl_trs lo)), x. split; [|split; auto; lia]. apply Hin. split; [intros Em; rewrite Em in Hx'; destruct Hx'|eauto].
    - intros [xs [x [Hxs [Hx Hb]]]]. apply Hin in Hxs. destruct Hxs as [N [lo [me [Hl ->]]]].
      destruct (Hfs _ _ Hl) as [K1 [K2 [K3 K4]]]. apply filter_In in Hx. destruct Hx as [Hx Hm].
      exists lo, me. split; auto. apply owns_iff_trs; auto. exists x. split; auto. split; [lia|]. rewrite K2, Hd. unfold InBox. lia. }
  assert (Nown : own <> []).
  { apply Own_in in Hown. destruct Hown as [xs [x [K _]]]. intros ->. destruct K. }
  set (g := fun c => match filter_call sf (match c with ACrange t _ _ => t | ACidx t _ => t end)
          (match c with ACrange _ r _ => r_box r | ACidx _ x => mkBox (mkIdx x 0 0) (mkIdx (x + 1) 0 0) end) with Ok b => b | _ => false end).
  assert (Hg2 : forall c, filter_call sf (match c with ACrange t _ _ => t | ACidx t _ => t end)
          (match c with ACrange _ r _ => r_box r | ACidx _ x => mkBox (mkIdx x 0 0) (mkIdx (x + 1) 0 0) end) = Ok (g c)).
  { intros c. unfold g. match goal with |- filter_call _ ?t ?b = _ => destruct (sf_for_call own sf t b Nown S) as [k [-> _]] end. auto. }
  assert (Keep : forall c t i, Gives 1 c t i -> owns_one fs i -> g c = true).
  { intros c t i Gc Oi. apply Own_in in Oi. destruct Oi as [xs [x [K1 [K2 K3]]]]. unfold g.
    match goal with |- match filter_call _ ?t ?b with _ => _ end = _ => destruct (sf_for_call own sf t b Nown S) as [k [-> Ek]] end.
    apply Ek. exists xs, x. split; auto. split; auto. unfold touches. destruct c as [t' r g'|t' y]; simpl in Gc.
    - destruct Gc as [_ Gc]. unfold InBox in Gc. lia.
    - simpl. lia. }
  destruct (filtered_run q q' pr p sf g l Hq Hq' Hv Hg H Hg2) as [cs [R1 [O [HR K]]]].
  destruct K as [l' [R [O' HR']]].
  { destruct Hne as [Hne|[t [i [Oi Hi]]]]; [left; auto|right]. apply O in Hi. destruct Hi as [c [Hc Gc]]. rewrite Hd in Gc.
    intros Ef. assert (Kc : In c []). { rewrite <- Ef. apply filter_In. split; auto. eapply Keep; eauto. } destruct Kc. }
  exists l'. split; auto. split; [|split].
  - intros t i. rewrite O', O. intros [c [Hc Gc]]. apply filter_In in Hc. exists c. tauto.
  - intros t i Oi. rewrite O', O. intros [c [Hc Gc]]. exists c. split; auto. apply filter_In. split; auto. rewrite Hd in Gc. eapply Keep; eauto.
  - intros Hmg Hr t b tg. rewrite (HR' Hmg (Hr _ R1)), (HR Hmg (Hr _ R1)). split; [|split].
    + intros [r [Hc Hb]]. apply filter_In in Hc. exists r. tauto.
    + intros [r [Hc Hb]] [i [Oi Hi]]. exists r. split; auto. apply filter_In. split; auto. eapply (Keep _ t i); eauto. simpl. rewrite Hb. auto.
    + intros [r [Hc Hb]] NE NEo. apply filter_In in Hc. destruct Hc as [Hc Gc]. unfold g in Gc.
      match type of Gc with match filter_call _ ?t ?b with _ => _ end = _ => destruct (sf_for_call own sf t b Nown S) as [k [Ek1 Ek]]; rewrite Ek1 in Gc end.
      apply Ek in Gc. destruct Gc as [xs [x [K1 [K2 [K3 K4]]]]]. rewrite Hb in K3, K4.
      pose proof K1 as K1'. apply Hin in K1'. destruct K1' as [N [lo [me [Hl Exs]]]].
      destruct (Hfs _ _ Hl) as [L1 [L2 [L3 L4]]].
      assert (NEx : NonEmpty 1 (t_box x)).
      { subst xs. apply filter_In in K2. destruct K2 as [K2 _]. rewrite <- Hd, <- L2. apply noempty_in; auto. eapply NEo; eauto. }
      destruct NE as [a Ha], NEx as [b' Hb']. unfold InBox in Ha, Hb'.
      exists (mkIdx (Z.max (i0 (b_from b)) (i0 (b_from (t_box x)))) 0 0). split; [|unfold InBox; simpl; lia].
      apply Own_in. exists xs, x. simpl. split; auto. split; auto. lia.
Qed.

(* disjoint non-empty ranges with one tag are ascending *)
Lemma tag_ascending s tids h l qg qs l' me : sp_dims s = 1%nat -> 0 <= tids ->
  is_qsort trgen_cmp qg -> run_appends s tids h = Ok l -> rl_freeze qg qs l false = Ok l' ->
  NoEmpty l' -> Disjoint l' -> (forall t n m x y, rl_tidrange l' t n = Ok (Some x) -> rl_tidrange l' t m = Ok (Some y) -> t_tag x = t_tag y) ->
  Ascending l' me.
Proof.
  intros Hd Ht Hq A Fz NE Dj Tg n m x y Hnm Hx Hy.
  assert (FL : FrozenList l').
  { eapply FL_gen; eauto. rewrite Hd. left; auto. }
  assert (Sl : rl_space l' = s /\ rl_tids l' = tids).
  { destruct (freeze_after_appends s tids _ l qg qs false A Hq Ht) as [l2 [G1 [G2 [G3 [G4 _]]]]]; [discriminate|].
    assert (l2 = l') by congruence. subst l2. auto. }
  destruct Sl as [Sl Tl].
  destruct (Z.eq_dec n m) as [->|Nn]; [rewrite Hx in Hy; injection Hy as <-; lia|].
  assert (Hme : 0 <= me < tids).
  { destruct (frozen_range_in _ _ _ _ FL Hx) as [Ix <-]. destruct (FrozenList_Frozen _ FL) as [F' _].
    pose proof (fz_tasks l' F') as T. rewrite Forall_forall in T. specialize (T x Ix). lia. }
  destruct (enumeration_gen _ _ _ _ _ _ _ me Hq A Fz Hme) as [xs [E1 [E2 [_ [_ E5]]]]].
  pose proof (Tg _ _ _ _ _ Hx Hy) as Tgx.
  pose proof (NE _ _ _ Hx) as [a Ha]. pose proof (NE _ _ _ Hy) as [b Hb]. rewrite Sl, Hd in Ha, Hb. unfold InBox in Ha, Hb.
  pose proof Hx as Hx'. pose proof Hy as Hy'. rewrite E2 in Hx', Hy'.
  destruct (n <? 0) eqn:En; [discriminate|]. destruct (m <? 0) eqn:Em; [discriminate|]. injection Hx' as Hx'. injection Hy' as Hy'.
  pose proof (StronglySorted_nth _ _ E5 (Z.to_nat n) (Z.to_nat m) x y ltac:(lia) Hx' Hy') as So.
  assert (F1 : i0 (b_from (t_box x)) <= i0 (b_from (t_box y))) by (cbv beta in So; lia). split; auto.
  destruct (Z_le_dec (i0 (b_to (t_box x))) (i0 (b_from (t_box y)))) as [L|L]; [lia|]. exfalso.
  destruct (Dj _ _ _ _ _ _ (mkIdx (i0 (b_from (t_box y))) 0 0) Hx Hy) as [_ K]; [| |lia]; rewrite Sl, Hd; unfold InBox; simpl; lia.
Qed.
