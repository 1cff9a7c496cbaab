(* Running a partitioner: C16 and the common part of C10-C17 *)
From Coq Require Import ZArith List Bool Lia Permutation Sorted ZifyBool ZifyNat.
From Verif Require Import Base ListFacts Model_Space Spec_Space Proof_Space Model_RangeList Spec_RangeList
  Proof_RangeList Proof_RangeList2 Proof_RangeList3 Proof_RangeList4 Proof_RangeList5 Proof_Cover
  Model_Partitioner Spec_Partitioner.
Import ListNotations.
Open Scope Z_scope.

Definition is_range (c : acall) : bool := match c with ACrange _ _ _ => true | ACidx _ _ => false end.
Definition to_app (c : acall) : appcall :=
  match c with ACrange t r g => mkApp t r g | ACidx t _ => mkApp t (mkRange None zbox) 0 end.
Definition to_si (c : acall) : tsi :=
  match c with ACrange t _ _ => mkTsi t 0 | ACidx t x => mkTsi t x end.

Definition run_calls (s : space) (tids : Z) (h : list acall) : outcome rlist :=
  ofold (do_append None) h (rl_new s tids).

(* without filter: either only range calls, or only index calls *)
Lemma run_calls_kind s tids h l : run_calls s tids h = Ok l ->
  (Forall (fun c => is_range c = true) h /\ run_appends s tids (map to_app h) = Ok l) \/
  (h <> [] /\ Forall (fun c => is_range c = false) h /\ run_singles s tids (map to_si h) = Ok l).
Proof.
  intros H.
  refine (ofold_ind _ (fun pre l =>
    (Forall (fun c => is_range c = true) pre /\ run_appends s tids (map to_app pre) = Ok l) \/
    (pre <> [] /\ Forall (fun c => is_range c = false) pre /\ run_singles s tids (map to_si pre) = Ok l))
    h _ l _ _ H).
  - left. split; [constructor|reflexivity].
  - intros pre c post l1 l2 _ IH E. destruct c as [t r g|t x]; simpl in E.
    + destruct IH as [[F R]|[N [F R]]].
      * left. split; [apply Forall_app; split; [auto|repeat constructor]|].
        unfold run_appends in *. rewrite map_app, ofold_app, R. simpl. rewrite E. reflexivity.
      * exfalso. destruct (run_singles_ok _ _ _ _ R) as [A1 [A2 [A3 [A4 [A5 [A6 A7]]]]]].
        apply rl_append_ok in E. destruct E as [_ [E _]]. apply A6 in E.
        destruct pre; simpl in E; congruence.
    + destruct IH as [[F R]|[N [F R]]].
      * destruct pre as [|c pre].
        -- right. split; [discriminate|]. split; [repeat constructor|].
           unfold run_singles, run_appends in *. simpl in *. injection R as R. subst l1.
           rewrite E. reflexivity.
        -- exfalso. destruct (run_appends_ok _ _ _ _ R) as [A1 [A2 [A3 [A4 [A5 [A6 [A7 A8]]]]]]].
           unfold rl_append_single1d in E. destruct (rl_trange l1) eqn:En; [discriminate|].
           destruct A7 as [A7 _]. specialize (A7 eq_refl). discriminate.
      * right. split; [destruct pre; discriminate|].
        split; [apply Forall_app; split; [auto|repeat constructor]|].
        unfold run_singles in *. rewrite map_app, ofold_app, R. simpl. rewrite E. reflexivity.
Qed.


Lemma within_space_sub s b : valid_dims (sp_dims s) ->
  range_within_space (mkRange (Some s) b) s = Ok true -> SubBox (sp_dims s) b (sp_box s).
Proof.
  intros Hd H. unfold range_within_space, range_within_range in H. simpl in H.
  rewrite space_eq_refl in H. simpl in H. injection H as H. apply box_within_sound; auto.
Qed.

(* all calls are inside of the space and for existing processes *)
Lemma run_calls_inside s tids h l : valid_dims (sp_dims s) -> run_calls s tids h = Ok l ->
  forall c t i, In c h -> Gives (sp_dims s) c t i ->
    0 <= t < tids /\ (is_range c = true \/ sp_dims s = 1%nat -> InBox (sp_dims s) i (sp_box s)).
Proof.
  intros Hd H c t i Hc Hg. destruct (run_calls_kind _ _ _ _ H) as [[F R]|[N [F R]]].
  - destruct (run_appends_ok _ _ _ _ R) as [A1 [A2 [A3 [A4 [A5 [A6 [A7 A8]]]]]]].
    rewrite Forall_forall in F, A8. specialize (F c Hc).
    specialize (A8 (to_app c) (in_map _ _ _ Hc)). destruct c as [t' [rs b] g|]; [|discriminate].
    destruct Hg as [<- Hg]. simpl in A8, Hg. destruct A8 as [B1 [[rs' [B2 B3]] B4]]. split; auto.
    intros _. apply space_eq_eq in B3. subst rs rs'.
    eapply within_space_sub; eauto.
  - destruct (run_singles_ok _ _ _ _ R) as [A1 [A2 [A3 [A4 [A5 [A6 A7]]]]]].
    rewrite Forall_forall in F, A7. specialize (F c Hc).
    specialize (A7 (to_si c) (in_map _ _ _ Hc)). destruct c as [|t' x]; [discriminate|].
    destruct Hg as [<- Hg]. simpl in A7. split; [lia|]. intros [K|K]; [discriminate|].
    unfold InBox. rewrite K. lia.
Qed.

Lemma to_app_given s h : Forall (fun c => is_range c = true) h ->
  forall t i, Appended s (map to_app h) t i <-> Given (sp_dims s) h t i.
Proof.
  intros F t i. rewrite Forall_forall in F. unfold Appended, Given. split.
  - intros [a [Ha [H1 H2]]]. apply in_map_iff in Ha. destruct Ha as [c [<- Hc]]. exists c. split; auto.
    specialize (F c Hc). destruct c; [simpl in *; auto|discriminate].
  - intros [c [Hc H]]. exists (to_app c). split; [apply in_map; auto|].
    specialize (F c Hc). destruct c; [simpl in *; auto|discriminate].
Qed.

Lemma to_si_given d h : Forall (fun c => is_range c = false) h ->
  forall t i, In (mkTsi t (i0 i)) (map to_si h) <-> Given d h t i.
Proof.
  intros F t i. rewrite Forall_forall in F. unfold Given. rewrite in_map_iff. split.
  - intros [c [E Hc]]. exists c. split; auto. specialize (F c Hc). destruct c; [discriminate|].
    simpl in *. injection E as E1 E2. auto.
  - intros [c [Hc H]]. exists c. split; [|auto].
    specialize (F c Hc). destruct c; [discriminate|]. simpl in *. destruct H as [-> ->]. auto.
Qed.

(* the frozen list of a sequence of calls *)
Lemma calls_freeze q s tids h l m l' : good_sorts q -> valid_dims (sp_dims s) -> 0 <= tids ->
  run_calls s tids h = Ok l -> rl_freeze (q_gen q) (q_si q) l m = Ok l' ->
  FrozenList l' /\ rl_space l' = s /\ rl_tids l' = tids /\
  (Exists (fun c => is_range c = false) h -> sp_dims s = 1%nat) /\
  forall t i, Owns l' t i <-> Given (sp_dims s) h t i.
Proof.
  intros [Q1 [Q2 Q3]] Hd Ht H Hf. destruct (run_calls_kind _ _ _ _ H) as [[F R]|[N [F R]]].
  - conjs.
    + eapply FL_gen; eauto.
    + pose proof (freeze_ok_cond _ _ _ _ _ _ _ _ R Q1 Hf) as Hc.
      destruct (freeze_after_appends _ _ _ _ _ (q_si q) _ R Q1 Ht Hc) as [l2 [G1 [G2 [G3 [G4 _]]]]].
      congruence.
    + pose proof (freeze_ok_cond _ _ _ _ _ _ _ _ R Q1 Hf) as Hc.
      destruct (freeze_after_appends _ _ _ _ _ (q_si q) _ R Q1 Ht Hc) as [l2 [G1 [G2 [G3 [G4 _]]]]].
      congruence.
    + intros K. exfalso. apply Exists_exists in K. destruct K as [c [Hc K]].
      rewrite Forall_forall in F. specialize (F c Hc). congruence.
    + intros t i. rewrite (freeze_owns_gen _ _ _ _ _ _ _ _ Ht Q1 R Hf). apply to_app_given; auto.
  - assert (N' : map to_si h <> []) by (destruct h; simpl; congruence).
    assert (Hd1 : sp_dims s = 1%nat).
    { destruct (run_singles_ok _ _ _ _ R) as [A1 [A2 [A3 [A4 [A5 [A6 A7]]]]]].
      unfold rl_freeze in Hf. rewrite A3 in Hf. simpl in Hf.
      destruct (rl_tss1d l) as [si|] eqn:Es.
      - unfold updateOffsetsSI in Hf. rewrite Es in Hf. apply cassert_ok in Hf. destruct Hf as [_ Hf].
        rewrite A4 in Hf. destruct (Nat.eqb (sp_dims s) 1) eqn:E1; [lia|discriminate].
      - exfalso. apply N'. apply A6. auto. }
    destruct (freeze_singles_ok _ _ _ _ (q_gen q) _ m R Q2 N' Hd1 Ht) as [l2 [x [r [G1 [G2 [G3 [G4 _]]]]]]].
    assert (l2 = l') by congruence. subst l2.
    conjs; auto.
    + eapply FL_single; eauto.
    + intros t i. destruct (freeze_owns_singles _ _ _ _ (q_gen q) _ m Ht Q2 N' Hd1 R) as [l2 [G5 [G6 _]]].
      assert (l2 = l') by congruence. subst l2. rewrite G6. apply to_si_given; auto.
Qed.

(* filters only remove calls *)
Definition kept (f : rfilter) (c : acall) : bool :=
  match filter_call f (match c with ACrange t _ _ => t | ACidx t _ => t end)
          (match c with ACrange _ r _ => r_box r | ACidx _ x => mkBox (mkIdx x 0 0) (mkIdx (x + 1) 0 0) end) with
  | Ok b => b | _ => false end.

Lemma do_append_filter f l c l' : do_append (Some f) l c = Ok l' ->
  (if kept f c then do_append None l c else Ok l) = Ok l'.
Proof.
  destruct c as [t r g|t x]; simpl; unfold kept; intros H.
  - apply obind_ok in H. destruct H as [b [H1 H2]]. rewrite H1. destruct b; auto.
  - apply obind_ok in H. destruct H as [b [H1 H2]]. rewrite H1. destruct b; auto.
Qed.

Lemma run_filter f : forall cs l l', ofold (do_append (Some f)) cs l = Ok l' ->
  ofold (do_append None) (filter (kept f) cs) l = Ok l'.
Proof.
  induction cs as [|c cs IH]; intros l l' H; simpl; [exact H|].
  simpl in H. apply obind_ok in H. destruct H as [l1 [H1 H2]]. apply do_append_filter in H1.
  destruct (kept f c); simpl.
  - rewrite H1. simpl. apply IH; auto.
  - injection H1 as ->. apply IH; auto.
Qed.

Definition calls_of (sf : option rfilter) (cs : list acall) : list acall :=
  match sf with None => cs | Some f => filter (kept f) cs end.

Lemma run_partitioner_ok q pr p sf l :
  good_sorts q -> valid_dims (sp_dims (pp_space p)) -> 0 <= g_size (pp_group p) ->
  run_partitioner q pr p sf = Ok l ->
  exists cs l0, pr_run pr p = Ok cs /\
    run_calls (pp_space p) (g_size (pp_group p)) (calls_of sf cs) = Ok l0 /\
    rl_freeze (q_gen q) (q_si q) l0 (pr_merge pr) = Ok l /\
    FrozenList l /\ rl_space l = pp_space p /\ rl_tids l = g_size (pp_group p) /\
    (forall t i, Owns l t i <-> Given (sp_dims (pp_space p)) (calls_of sf cs) t i) /\
    (pr_nocover pr = false -> sf = None -> rl_coversSpace (q_from q) l = Ok true) /\
    (forall o, pp_other p = Some o -> op_group o = pp_group p).
Proof.
  intros Hq Hd Hs H. unfold run_partitioner in H.
  apply cassert_ok in H. destruct H as [Ho H].
  apply obind_ok in H. destruct H as [cs [H1 H]].
  apply obind_ok in H. destruct H as [l0 [H2 H]].
  apply obind_ok in H. destruct H as [l2 [H3 H]].
  assert (El : l2 = l /\ (pr_nocover pr = false -> sf = None -> rl_coversSpace (q_from q) l = Ok true)).
  { destruct (negb (pr_nocover pr) && match sf with None => true | Some _ => false end) eqn:E.
    - apply obind_ok in H. destruct H as [c [H4 H5]]. destruct c; [|discriminate].
      injection H5 as ->. auto.
    - injection H as ->. split; auto. intros K1 K2. rewrite K1, K2 in E. discriminate. }
  destruct El as [-> Hc].
  assert (R : run_calls (pp_space p) (g_size (pp_group p)) (calls_of sf cs) = Ok l0).
  { unfold run_calls, calls_of. destruct sf; auto. apply run_filter; auto. }
  destruct (calls_freeze _ _ _ _ _ _ _ Hq Hd Hs R H3) as [F [F1 [F2 [_ F3]]]].
  exists cs, l0. conjs; auto.
  intros o Eo. rewrite Eo in Ho. unfold group_eq in Ho. destruct (group_dec (op_group o) (pp_group p)); congruence.
Qed.

(* ---- C16 ---- *)

Lemma owns_iff_trs l t i : FrozenList l ->
  (Owns l t i <-> exists x, In x (rl_trs l) /\ t_task x = t /\ InBox (sp_dims (rl_space l)) i (t_box x)).
Proof.
  intros F. destruct (FrozenList_Frozen _ F) as [F' _]. apply frozen_owns; auto.
Qed.

Lemma accept_covering q pr p l :
  good_sorts q -> valid_dims (sp_dims (pp_space p)) -> 0 <= g_size (pp_group p) ->
  pr_nocover pr = false -> run_partitioner q pr p None = Ok l ->
  forall i, InBox (sp_dims (pp_space p)) i (sp_box (pp_space p)) ->
    exists t, 0 <= t < g_size (pp_group p) /\ Owns l t i.
Proof.
  intros Hq Hd Hs Hn H i Hi.
  destruct (run_partitioner_ok _ _ _ _ _ Hq Hd Hs H) as [cs [l0 [R1 [R2 [R3 [F [E1 [E2 [O [C _]]]]]]]]]].
  destruct Hq as [Q1 [Q2 Q3]].
  specialize (C Hn eq_refl). rewrite <- E1 in Hd, Hi.
  destruct (covers_sound _ _ Hd Q3 C i Hi) as [x [Hx K]].
  exists (t_task x).
  assert (Ow : Owns l (t_task x) i) by (apply owns_iff_trs; auto; exists x; auto).
  split; auto. rewrite <- E2. destruct (FrozenList_Frozen _ F) as [F' _].
  pose proof (fz_tasks l F') as T. rewrite Forall_forall in T. apply T; auto.
Qed.
