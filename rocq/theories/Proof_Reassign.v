(* C15: the reassign partitioner, for any arithmetic *)
From Coq Require Import ZArith List Bool Lia Permutation Sorted ZifyBool ZifyNat.
From Verif Require Import Base ListFacts Model_Space Spec_Space Proof_Space Model_RangeList Spec_RangeList
  Proof_RangeList Proof_RangeList2 Proof_RangeList3 Proof_RangeList4 Proof_RangeList5 Proof_Cover
  Model_Partitioner Spec_Partitioner Proof_Partitioner Proof_Partitioner2 Proof_Partitioner4 Proof_Block.
Import ListNotations.
Open Scope Z_scope.

Section Re.
  Context {W : Type} (A : warith W).
  Variables (newg : group) (getIdxW : option (index -> W)) (sp : space) (n : Z).
  Hypothesis PM : ParentMaps n (g_size newg) (g_toParent newg) (g_fromParent newg).
  Hypothesis Hsize : 0 < g_size newg.

  (* a redistributed piece: receiver (in the new group), from, to *)
  Definition piece_call (x : Z * (Z * Z)) (c : acall) : Prop :=
    0 <= fst x < g_size newg /\
    exists t, nth_error (g_toParent newg) (Z.to_nat (fst x)) = Some t /\
      c = ACrange t (re_range sp (fst (snd x)) (snd (snd x))) 0.

  Definition pieces (f t : Z) (cs : list acall) : Prop :=
    exists ps, Forall2 piece_call ps cs /\ Consec f t (map snd ps).

  Lemma toParent_read k : 0 <= k < g_size newg -> exists t, aread (g_toParent newg) k = Ok t /\ nth_error (g_toParent newg) (Z.to_nat k) = Some t.
  Proof.
    intros H. destruct PM as [P1 P2 P3 P4]. destruct (nth_error (g_toParent newg) (Z.to_nat k)) eqn:E.
    - exists z. split; auto. apply aread_ok. split; auto; lia.
    - apply nth_error_None in E. lia.
  Qed.

  Lemma pieces_snoc f m t k cs tt : pieces f m cs -> m < t -> 0 <= k < g_size newg ->
    nth_error (g_toParent newg) (Z.to_nat k) = Some tt ->
    pieces f t (cs ++ [ACrange tt (re_range sp m t) 0]).
  Proof.
    intros [ps [H1 H2]] Hm Hk Ht. exists (ps ++ [(k, (m, t))]). split.
    - apply Forall2_app; auto. constructor; auto. split; auto. exists tt. auto.
    - rewrite map_app. eapply Consec_app; [exact H2|]. simpl. lia.
  Qed.

  Lemma re_idx_inv perTask s rf i f cs0 cs :
    0 <= rs_cur s < g_size newg -> pieces f rf cs -> rs_out s = cs0 ++ cs -> rf <= i ->
    exists s' rf', re_idx A newg getIdxW sp perTask (s, rf) i = Ok (s', rf') /\
      0 <= rs_cur s' < g_size newg /\ rf <= rf' <= i + 1 /\
      exists cs', pieces f rf' cs' /\ rs_out s' = cs0 ++ cs'.
  Proof.
    intros Hc P E L. unfold re_idx.
    destruct (wa_ge A _ perTask && (rs_cur s <? g_size newg)).
    - destruct (toParent_read _ Hc) as [t [R1 R2]]. rewrite R1. cbn [obind]. eexists _, _. split; [reflexivity|].
      simpl. split; [destruct (rs_cur s + 1 =? g_size newg) eqn:K; lia|]. split; [lia|].
      exists (cs ++ [ACrange t (re_range sp rf (i + 1)) 0]). split.
      + eapply pieces_snoc; eauto. lia.
      + rewrite E, app_assoc. reflexivity.
    - eexists _, _. split; [reflexivity|]. simpl. split; auto. split; [lia|]. eauto.
  Qed.

  Lemma zrange_step a b : a < b -> zrange a b = a :: zrange (a + 1) b.
  Proof.
    intros H. unfold zrange, zcount. replace (Z.to_nat (b - a)) with (S (Z.to_nat (b - (a + 1)))) by lia.
    rewrite <- cons_seq, <- seq_shift. cbn [map]. f_equal; [lia|]. rewrite !map_map. apply map_ext. intros; lia.
  Qed.

  Lemma zrange_nil a b : b <= a -> zrange a b = [].
  Proof. intros H. unfold zrange, zcount. replace (Z.to_nat (b - a)) with 0%nat by lia. reflexivity. Qed.

  Lemma re_loop perTask f to cs0 : forall k i s rf cs, k = Z.to_nat (to - i) ->
    0 <= rs_cur s < g_size newg -> pieces f rf cs -> rs_out s = cs0 ++ cs -> rf <= i -> i <= to ->
    exists s' rf', ofold (re_idx A newg getIdxW sp perTask) (zrange i to) (s, rf) = Ok (s', rf') /\
      0 <= rs_cur s' < g_size newg /\ rf <= rf' <= to /\
      exists cs', pieces f rf' cs' /\ rs_out s' = cs0 ++ cs'.
  Proof.
    induction k as [|k IH]; intros i s rf cs Hk Hc P E L1 L2.
    - rewrite zrange_nil by lia. eexists _, _. split; [reflexivity|]. split; auto. split; [lia|]. eauto.
    - rewrite zrange_step by lia. cbn [ofold].
      destruct (re_idx_inv perTask s rf i f cs0 cs Hc P E L1) as [s1 [rf1 [R [C1 [L3 [cs1 [P1 E1]]]]]]].
      rewrite R. cbn [obind].
      destruct (IH (i + 1) s1 rf1 cs1 ltac:(lia) C1 P1 E1 ltac:(lia) ltac:(lia)) as [s2 [rf2 [R2 [C2 [L4 K]]]]].
      exists s2, rf2. split; auto. split; auto. split; auto. lia.
  Qed.

  (* what one old range becomes *)
  Definition one_out (x : trg) (cs : list acall) : Prop :=
    (Remains newg (t_task x) /\ cs = [ACrange (t_task x) (mkRange (Some sp) (t_box x)) 0]) \/
    (~ Remains newg (t_task x) /\
      (i0 (b_from (t_box x)) < i0 (b_to (t_box x)) /\ pieces (i0 (b_from (t_box x))) (i0 (b_to (t_box x))) cs \/
       i0 (b_to (t_box x)) <= i0 (b_from (t_box x)) /\ cs = [])).

  Lemma re_one_inv perTask s x : 0 <= t_task x < n -> 0 <= rs_cur s < g_size newg ->
    exists s' cs, re_one A newg getIdxW sp sp perTask s x = Ok s' /\ 0 <= rs_cur s' < g_size newg /\
      rs_out s' = rs_out s ++ cs /\ one_out x cs.
  Proof.
    intros Ht Hc. unfold re_one.
    assert (Rd : exists k, aread (g_fromParent newg) (t_task x) = Ok k /\ nth_error (g_fromParent newg) (Z.to_nat (t_task x)) = Some k).
    { destruct PM as [P1 P2 P3 P4]. destruct (nth_error (g_fromParent newg) (Z.to_nat (t_task x))) eqn:E.
      - exists z. split; auto. apply aread_ok. split; auto; lia.
      - apply nth_error_None in E. lia. }
    destruct Rd as [k [R1 R2]]. rewrite R1. cbn [obind]. destruct (k >=? 0) eqn:Ek.
    - eexists _, _. split; [reflexivity|]. simpl. split; auto. split; [reflexivity|]. left. split; auto.
      split; [lia|]. exists k. split; auto. lia.
    - assert (NR : ~ Remains newg (t_task x)).
      { intros [_ [k' [K1 K2]]]. rewrite R2 in K1. injection K1 as <-. lia. }
      destruct (Z_lt_dec (i0 (b_from (t_box x))) (i0 (b_to (t_box x)))) as [L|L].
      + destruct (re_loop perTask (i0 (b_from (t_box x))) (i0 (b_to (t_box x))) (rs_out s) _ (i0 (b_from (t_box x))) s
            (i0 (b_from (t_box x))) [] eq_refl Hc) as [s1 [rf [R [C1 [L1 [cs [P E]]]]]]]; try lia.
        { exists []. split; [constructor|reflexivity]. }
        { rewrite app_nil_r; auto. }
        rewrite R. cbn [obind]. destruct (rf <? i0 (b_to (t_box x))) eqn:Er.
        * destruct (toParent_read _ C1) as [t [R3 R4]]. rewrite R3. cbn [obind].
          eexists _, (cs ++ [ACrange t (re_range sp rf (i0 (b_to (t_box x)))) 0]). split; [reflexivity|]. simpl. split; auto. split.
          -- rewrite E, app_assoc. reflexivity.
          -- right. split; auto. left. split; auto. eapply pieces_snoc; eauto. lia.
        * exists s1, cs. split; auto. split; auto. split; auto. right. split; auto. left. split; auto.
          replace (i0 (b_to (t_box x))) with rf by lia. auto.
      + rewrite zrange_nil by lia. cbn [ofold obind].
        replace (i0 (b_from (t_box x)) <? i0 (b_to (t_box x))) with false by lia.
        exists s, []. split; auto. split; auto. split; [rewrite app_nil_r; auto|]. right. split; auto. right. split; auto. lia.
  Qed.

  Lemma re_total_ok : forall l acc, Forall (fun x => 0 <= t_task x < n) l -> exists w, re_total A newg getIdxW l acc = Ok w.
  Proof.
    induction l as [|x l IH]; intros acc F; simpl; [eauto|]. inversion F; subst.
    assert (Rd : exists k, aread (g_fromParent newg) (t_task x) = Ok k).
    { destruct PM as [P1 P2 P3 P4]. destruct (nth_error (g_fromParent newg) (Z.to_nat (t_task x))) eqn:E.
      - exists z. apply aread_ok. split; auto; lia.
      - apply nth_error_None in E. lia. }
    destruct Rd as [k R]. rewrite R. simpl. destruct (k >=? 0); auto.
  Qed.

  Lemma re_all perTask : forall l s, Forall (fun x => 0 <= t_task x < n) l -> 0 <= rs_cur s < g_size newg ->
    exists s' css, ofold (re_one A newg getIdxW sp sp perTask) l s = Ok s' /\
      rs_out s' = rs_out s ++ concat css /\ Forall2 one_out l css.
  Proof.
    induction l as [|x l IH]; intros s F Hc; cbn [ofold].
    - exists s, []. split; auto. split; [simpl; rewrite app_nil_r; auto|constructor].
    - inversion F as [|? ? F1 F2]; subst. destruct (re_one_inv perTask s x F1 Hc) as [s1 [cs [R [C [E O]]]]].
      rewrite R. cbn [obind]. destruct (IH s1 F2 C) as [s2 [css [R2 [E2 O2]]]].
      exists s2, (cs :: css). split; auto. split; [|constructor; auto]. rewrite E2, E. simpl. rewrite app_assoc. reflexivity.
  Qed.

  (* ownership of the calls for one old range *)
  Lemma pieces_given f t cs i : pieces f t cs -> f <= i0 i < t -> exists k u,
    nth_error (g_toParent newg) (Z.to_nat k) = Some u /\ 0 <= k < g_size newg /\ Given 1 cs u i.
  Proof.
    intros [ps [F C]] Hi. destruct (Consec_cover _ _ _ _ C Hi) as [a [b [K1 K2]]].
    apply in_map_iff in K1. destruct K1 as [x [Ex Kx]].
    apply In_nth_error in Kx. destruct Kx as [m Kx].
    destruct (Forall2_nth_error_l _ _ _ F m x Kx) as [c [Hc [Hk [u [Hu ->]]]]].
    exists (fst x), u. split; auto. split; auto. eexists. split; [eapply nth_error_In; eauto|].
    simpl. rewrite Ex. simpl. split; auto. unfold InBox, re_range; simpl. lia.
  Qed.

  Lemma pieces_given_inv f t cs u i : pieces f t cs -> Given 1 cs u i ->
    f <= i0 i < t /\ exists k, 0 <= k < g_size newg /\ nth_error (g_toParent newg) (Z.to_nat k) = Some u.
  Proof.
    intros [ps [F C]] [c [Hc G]]. apply In_nth_error in Hc. destruct Hc as [m Hc].
    destruct (Forall2_nth_error_r _ _ _ F m c Hc) as [x [Hx [Hk [u' [Hu ->]]]]].
    simpl in G. destruct G as [-> G]. unfold InBox, re_range in G; simpl in G.
    pose proof (map_nth_error snd _ _ Hx) as Hs. apply nth_error_In in Hs.
    rewrite (surjective_pairing (snd x)) in Hs. apply (Consec_in _ _ _ _ _ C) in Hs. split; [lia|]. eauto.
  Qed.

  Lemma pieces_unique f t cs u v i : pieces f t cs -> Given 1 cs u i -> Given 1 cs v i -> u = v.
  Proof.
    intros [ps [F C]] [c [Hc G]] [c' [Hc' G']]. apply In_nth_error in Hc, Hc'. destruct Hc as [m Hc], Hc' as [m' Hc'].
    destruct (Forall2_nth_error_r _ _ _ F m c Hc) as [x [Hx [Hk [u1 [Hu ->]]]]].
    destruct (Forall2_nth_error_r _ _ _ F m' c' Hc') as [x' [Hx' [Hk' [u2 [Hu' ->]]]]].
    simpl in G, G'. destruct G as [<- G], G' as [<- G']. unfold InBox, re_range in G, G'; simpl in G, G'.
    destruct (Nat.lt_trichotomy m m') as [L|[L|L]].
    - exfalso. pose proof (map_nth_error snd _ _ Hx) as H1. pose proof (map_nth_error snd _ _ Hx') as H2.
      rewrite (surjective_pairing (snd x)) in H1. rewrite (surjective_pairing (snd x')) in H2.
      pose proof (Consec_nth _ _ _ _ _ _ _ _ _ C L H1 H2). lia.
    - subst. congruence.
    - exfalso. pose proof (map_nth_error snd _ _ Hx) as H1. pose proof (map_nth_error snd _ _ Hx') as H2.
      rewrite (surjective_pairing (snd x)) in H1. rewrite (surjective_pairing (snd x')) in H2.
      pose proof (Consec_nth _ _ _ _ _ _ _ _ _ C L H2 H1). lia.
  Qed.

  Lemma to_remains k u : 0 <= k < g_size newg -> nth_error (g_toParent newg) (Z.to_nat k) = Some u -> Remains newg u /\ 0 <= u < n.
  Proof. intros Hk Hu. destruct PM as [P1 P2 P3 P4]. destruct (P3 k u ltac:(lia) Hu) as [Q1 Q2]. split; auto. split; [lia|]. exists k. split; auto. lia. Qed.

  Lemma one_out_given x cs i : one_out x cs -> InBox 1 i (t_box x) -> exists u, Given 1 cs u i /\ (Remains newg (t_task x) -> u = t_task x).
  Proof.
    intros H Hi. unfold InBox in Hi. destruct H as [[R ->]|[R [[L P]|[L ->]]]].
    - exists (t_task x). split; auto. eexists. split; [left; reflexivity|]. simpl. split; auto.
    - destruct (pieces_given _ _ _ i P ltac:(lia)) as [k [u [_ [_ G]]]]. exists u. split; auto. intros; contradiction.
    - lia.
  Qed.

  Lemma one_out_inv x cs u i : one_out x cs -> Given 1 cs u i -> InBox 1 i (t_box x) /\ Remains newg u /\ (Remains newg (t_task x) -> u = t_task x).
  Proof.
    intros H G. destruct H as [[R ->]|[R [[L P]|[L ->]]]].
    - destruct G as [c [[<-|[]] G]]. simpl in G. destruct G as [<- G]. auto.
    - destruct (pieces_given_inv _ _ _ _ _ P G) as [K1 [k [K2 K3]]]. destruct (to_remains _ _ K2 K3).
      split; [unfold InBox; lia|]. split; auto. intros; contradiction.
    - destruct G as [c [[] _]].
  Qed.

  Lemma one_out_unique x cs u v i : one_out x cs -> Given 1 cs u i -> Given 1 cs v i -> u = v.
  Proof.
    intros H G1 G2. destruct H as [[R ->]|[R [[L P]|[L ->]]]].
    - destruct G1 as [c [[<-|[]] G1]], G2 as [c [[<-|[]] G2]]. simpl in *. destruct G1 as [<- _], G2 as [<- _]. auto.
    - eapply pieces_unique; eauto.
    - destruct G1 as [c [[] _]].
  Qed.
End Re.

Lemma reassign_calls {W} (A : warith W) newg getIdxW p o lo :
  pp_other p = Some o -> op_all o = Some lo -> op_space o = pp_space p -> sp_dims (pp_space p) = 1%nat ->
  g_parent newg = Some (g_id (op_group o)) -> FrozenList lo -> rl_tids lo = g_size (pp_group p) ->
  ParentMaps (g_size (pp_group p)) (g_size newg) (g_toParent newg) (g_fromParent newg) -> 0 < g_size newg ->
  exists css, pr_run (reassign_partitioner A newg getIdxW) p = Ok (concat css) /\
    Forall2 (one_out newg (pp_space p)) (rl_trs lo) css.
Proof.
  intros Ho Ha Hs Hd Hp F Ht PM Hn.
  assert (T : Forall (fun x => 0 <= t_task x < g_size (pp_group p)) (rl_trs lo)).
  { destruct (FrozenList_Frozen _ F) as [F' _]. pose proof (fz_tasks lo F') as T. rewrite Ht in T. auto. }
  simpl. unfold runReassign. rewrite Ho, Hp, Hs, Hd. rewrite Z.eqb_refl. cbn [cassert Nat.eqb].
  unfold other_ranges. rewrite Ha. cbn [obind].
  destruct (re_total_ok A newg getIdxW _ PM _ (wa_ofZ A 0) T) as [w ->]. cbn [obind].
  destruct (re_all A newg getIdxW (pp_space p) _ PM Hn (wa_div A w (wa_ofZ A (g_size newg))) _ (mkRstate (wa_ofZ A 0) 0 []) T) as [s [css [R [E O]]]].
  { simpl; lia. }
  rewrite R. cbn [obind]. exists css. rewrite E. auto.
Qed.

Lemma given_concat d css t i : Given d (concat css) t i <-> exists m cs, nth_error css m = Some cs /\ Given d cs t i.
Proof.
  split.
  - intros [c [H G]]. apply in_concat in H. destruct H as [cs [H1 H2]]. apply In_nth_error in H1. destruct H1 as [m H1].
    exists m, cs. split; auto. exists c; auto.
  - intros [m [cs [H1 [c [H2 G]]]]]. exists c. split; auto. apply in_concat. exists cs. split; auto. eapply nth_error_In; eauto.
Qed.

Lemma nth_filter {X} (f : X -> bool) : forall l m x, nth_error l m = Some x -> f x = true ->
  nth_error (filter f l) (length (filter f (firstn m l))) = Some x.
Proof.
  induction l as [|a l IH]; intros m x H K; [destruct m; discriminate|]. destruct m as [|m]; simpl in *.
  - injection H as ->. rewrite K. reflexivity.
  - destruct (f a); simpl; auto.
Qed.

Lemma filter_firstn_lt {X} (f : X -> bool) : forall l m m' x, nth_error l m = Some x -> f x = true -> (m < m')%nat ->
  (length (filter f (firstn m l)) < length (filter f (firstn m' l)))%nat.
Proof.
  induction l as [|a l IH]; intros m m' x H K L; [destruct m; discriminate|]. destruct m' as [|m']; [lia|]. destruct m as [|m]; simpl in *.
  - injection H as ->. rewrite K. simpl. lia.
  - specialize (IH m m' x H K ltac:(lia)). destruct (f a); simpl; lia.
Qed.

Lemma trs_tidrange lo : FrozenList lo -> forall m x, nth_error (rl_trs lo) m = Some x ->
  rl_tidrange lo (t_task x) (Z.of_nat (length (filter (fun y => t_task y =? t_task x) (firstn m (rl_trs lo))))) = Ok (Some x).
Proof.
  intros F m x H. destruct (FrozenList_Frozen _ F) as [F' _].
  pose proof (fz_tasks lo F') as T. rewrite Forall_forall in T. specialize (T x (nth_error_In _ _ H)).
  rewrite (frozen_tidrange lo F' _ _ T). set (k := length _).
  replace (Z.of_nat k <? 0) with false by lia. rewrite Nat2Z.id. unfold mine, k.
  rewrite (nth_filter (fun y => t_task y =? t_task x) _ m x); auto. lia.
Qed.

Lemma disjoint_trs lo : FrozenList lo -> Disjoint lo -> forall m m' x x' i,
  nth_error (rl_trs lo) m = Some x -> nth_error (rl_trs lo) m' = Some x' ->
  InBox (sp_dims (rl_space lo)) i (t_box x) -> InBox (sp_dims (rl_space lo)) i (t_box x') -> m = m'.
Proof.
  intros F U m m' x x' i H H' B B'.
  destruct (U _ _ _ _ _ _ i (trs_tidrange lo F m x H) (trs_tidrange lo F m' x' H') B B') as [E1 E2].
  rewrite E1 in E2. apply Nat2Z.inj in E2.
  destruct (Nat.lt_trichotomy m m') as [L|[L|L]]; auto; exfalso.
  - pose proof (filter_firstn_lt (fun y => t_task y =? t_task x') _ _ _ x H ltac:(cbv beta; lia) L). lia.
  - pose proof (filter_firstn_lt (fun y => t_task y =? t_task x') _ _ _ x' H' ltac:(cbv beta; lia) L). lia.
Qed.

Lemma reassign_owns {W} (A : warith W) newg getIdxW q p o lo l :
  good_sorts q -> sp_dims (pp_space p) = 1%nat ->
  pp_other p = Some o -> op_all o = Some lo -> op_space o = pp_space p ->
  FrozenList lo -> rl_space lo = pp_space p -> rl_tids lo = g_size (pp_group p) ->
  ParentMaps (g_size (pp_group p)) (g_size newg) (g_toParent newg) (g_fromParent newg) -> 0 < g_size newg ->
  run_partitioner q (reassign_partitioner A newg getIdxW) p None = Ok l ->
  (forall t i, Remains newg t -> Owns lo t i -> Owns l t i) /\
  (forall t i, Owns l t i -> Remains newg t) /\
  (forall i, (exists t, Owns l t i) <-> (exists t, Owns lo t i)) /\
  (Disjoint lo -> Unique l).
Proof.
  intros Hq Hd Ho Ha Hs F Hsp Ht PM Hn H.
  assert (Hg : 0 <= g_size (pp_group p)) by (destruct PM as [_ P _ _]; lia).
  assert (Hv : valid_dims (sp_dims (pp_space p))) by (rewrite Hd; left; auto).
  destruct (run_partitioner_ok _ _ _ _ _ Hq Hv Hg H) as [cs [l0 [R1 [_ [_ [_ [_ [_ [O [_ G]]]]]]]]]].
  specialize (G _ Ho).
  assert (Hp : g_parent newg = Some (g_id (op_group o))).
  { simpl in R1. unfold runReassign in R1. rewrite Ho in R1. apply cassert_ok in R1. destruct R1 as [R1 _].
    destruct (g_parent newg); [f_equal; lia|discriminate]. }
  destruct (reassign_calls A newg getIdxW p o lo Ho Ha Hs Hd Hp F Ht PM Hn) as [css [R2 F2]].
  rewrite R1 in R2. injection R2 as ->. rewrite Hd in O. simpl in O.
  assert (Ol : forall t i, Owns lo t i <-> exists x, In x (rl_trs lo) /\ t_task x = t /\ InBox 1 i (t_box x)).
  { intros. rewrite owns_iff_trs by auto. rewrite Hsp, Hd. reflexivity. }
  assert (O2 : forall t i, Owns l t i <-> exists m x cs, nth_error (rl_trs lo) m = Some x /\ nth_error css m = Some cs /\
      one_out newg (pp_space p) x cs /\ Given 1 cs t i).
  { intros. rewrite O, given_concat. split.
    - intros [m [cs [K1 K2]]]. destruct (Forall2_nth_error_r _ _ _ F2 m cs K1) as [x [Hx Ox]]. exists m, x, cs. auto.
    - intros [m [x [cs [K1 [K2 [K3 K4]]]]]]. exists m, cs. auto. }
  conjs.
  - intros t i R K. apply Ol in K. destruct K as [x [Kx [<- Ki]]]. apply In_nth_error in Kx. destruct Kx as [m Kx].
    destruct (Forall2_nth_error_l _ _ _ F2 m x Kx) as [cs [Hc Ox]].
    destruct (one_out_given _ _ _ _ _ Ox Ki) as [u [Gu Eu]]. rewrite (Eu R) in Gu. apply O2. exists m, x, cs. auto.
  - intros t i K. apply O2 in K. destruct K as [m [x [cs [K1 [K2 [K3 K4]]]]]].
    apply (one_out_inv _ _ _ PM _ _ _ _ K3 K4).
  - intros i. split.
    + intros [t K]. apply O2 in K. destruct K as [m [x [cs [K1 [K2 [K3 K4]]]]]].
      destruct (one_out_inv _ _ _ PM _ _ _ _ K3 K4) as [Ki _]. exists (t_task x). apply Ol. exists x. split; auto. eapply nth_error_In; eauto.
    + intros [t K]. apply Ol in K. destruct K as [x [Kx [_ Ki]]]. apply In_nth_error in Kx. destruct Kx as [m Kx].
      destruct (Forall2_nth_error_l _ _ _ F2 m x Kx) as [cs [Hc Ox]].
      destruct (one_out_given _ _ _ _ _ Ox Ki) as [u [Gu _]]. exists u. apply O2. exists m, x, cs. auto.
  - intros U t u i K1 K2. apply O2 in K1, K2.
    destruct K1 as [m [x [cs [N1 [M1 [O1 G1]]]]]], K2 as [m' [x' [cs' [N2 [M2 [O1' G2]]]]]].
    destruct (one_out_inv _ _ _ PM _ _ _ _ O1 G1) as [B1 [_ E1]]. destruct (one_out_inv _ _ _ PM _ _ _ _ O1' G2) as [B2 [_ E2]].
    assert (m = m').
    { apply (disjoint_trs lo F U m m' x x' i); auto; rewrite Hsp, Hd; auto. }
    subst m'. rewrite N1 in N2. injection N2 as <-. rewrite M1 in M2. injection M2 as <-.
    eapply one_out_unique; eauto.
Qed.

(* nothing can go wrong if the old partitioning covers the space *)
Lemma reassign_total {W} (A : warith W) newg getIdxW q p o lo :
  good_sorts q -> sp_dims (pp_space p) = 1%nat -> NonEmpty 1 (sp_box (pp_space p)) ->
  pp_other p = Some o -> op_group o = pp_group p -> op_all o = Some lo -> op_space o = pp_space p ->
  FrozenList lo -> rl_space lo = pp_space p -> rl_tids lo = g_size (pp_group p) -> NoEmpty lo ->
  (forall i, InBox 1 i (sp_box (pp_space p)) -> exists t, Owns lo t i) ->
  g_parent newg = Some (g_id (pp_group p)) ->
  ParentMaps (g_size (pp_group p)) (g_size newg) (g_toParent newg) (g_fromParent newg) -> 0 < g_size newg ->
  exists l, run_partitioner q (reassign_partitioner A newg getIdxW) p None = Ok l.
Proof.
  intros Hq Hd Hne Ho Hog Ha Hs F Hsp Ht NE Cov Hp PM Hn.
  assert (Hg : 0 <= g_size (pp_group p)) by (destruct PM as [_ P _ _]; lia).
  destruct (reassign_calls A newg getIdxW p o lo Ho Ha Hs Hd ltac:(rewrite Hog; auto) F Ht PM Hn) as [css [R2 F2]].
  apply (accept_1d q _ p _ Hq Hg ltac:(intros o' Eo; congruence) Hd Hne R2).
  - intros c Hc. apply in_concat in Hc. destruct Hc as [cs [H1 H2]]. apply In_nth_error in H1. destruct H1 as [m H1].
    destruct (Forall2_nth_error_r _ _ _ F2 m cs H1) as [x [Hx Ox]]. apply nth_error_In in Hx.
    pose proof (noempty_in lo x F NE Hx) as Nx. pose proof (frozen_sub lo x F Hx) as Sx. rewrite Hsp, Hd in Nx, Sx.
    assert (Tx : 0 <= t_task x < g_size (pp_group p)).
    { destruct (FrozenList_Frozen _ F) as [F' _]. pose proof (fz_tasks lo F') as T. rewrite Ht, Forall_forall in T. auto. }
    destruct Ox as [[R ->]|[R [[L P]|[L ->]]]].
    + destruct H2 as [<-|[]]. eexists _, _, _. split; [reflexivity|]. simpl. auto.
    + destruct P as [ps [Fp C]]. apply In_nth_error in H2. destruct H2 as [k H2].
      destruct (Forall2_nth_error_r _ _ _ Fp k c H2) as [y [Hy [Hk [u [Hu ->]]]]].
      eexists _, _, _. split; [reflexivity|]. destruct (to_remains _ _ PM _ _ Hk Hu) as [_ Hu2]. split; auto.
      split; [reflexivity|]. apply nth_error_In in Hy. apply (in_map snd) in Hy.
      rewrite (surjective_pairing (snd y)) in Hy. pose proof (Consec_in _ _ _ _ _ C Hy) as Ci.
      unfold re_range. simpl. split; [apply nonempty1; simpl; lia|].
      intros i Hi. apply Sx. unfold InBox in *. simpl in *. lia.
    + destruct H2.
  - intros i Hi. destruct (Cov i Hi) as [t K]. apply owns_iff_trs in K; auto. destruct K as [x [Kx [_ Ki]]].
    rewrite Hsp, Hd in Ki. apply In_nth_error in Kx. destruct Kx as [m Kx].
    destruct (Forall2_nth_error_l _ _ _ F2 m x Kx) as [cs [Hc Ox]].
    destruct (one_out_given _ _ _ _ _ Ox Ki) as [u [Gu _]]. exists u. apply given_concat. exists m, cs. auto.
Qed.
