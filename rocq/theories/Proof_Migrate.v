(* Proofs about migration of partitionings to another group *)
From Coq Require Import ZArith List Bool Lia ZifyBool ZifyNat Permutation Sorted.
From Verif Require Import Base ListFacts Model_Space Spec_Space Proof_Space Model_RangeList Spec_RangeList Proof_RangeList
  Proof_RangeList2 Proof_RangeList3 Proof_RangeList4 Proof_RangeList5
  Model_Partitioner Spec_Partitioner Proof_Partitioner Proof_Partitioner2 Proof_Filter Model_Group Spec_Group Proof_Group Proof_Group2 Proof_Group3.
Import ListNotations.
Open Scope Z_scope.

(* a range of process t in a frozen list *)
Lemma hasrange_in l t b g : Frozen l ->
  (HasRange l t b g <-> exists x, In x (rl_trs l) /\ t_task x = t /\ t_box x = b /\ t_tag x = g).
Proof.
  intros F. unfold HasRange. split.
  - intros [n [x [H1 [H2 H3]]]].
    assert (Ht : 0 <= t < rl_tids l).
    { unfold rl_tidrange in H1. destruct (fz_off _ F) as [offs [E1 _]]. rewrite E1 in H1. apply cassert_ok in H1. lia. }
    rewrite frozen_tidrange in H1 by auto. destruct (n <? 0); [discriminate|]. injection H1 as H1.
    apply nth_error_In in H1. unfold mine in H1. apply filter_In in H1. exists x. split; [tauto|]. split; [lia|auto].
  - intros [x [H1 [H2 H3]]]. pose proof (fz_tasks _ F) as T. rewrite Forall_forall in T. pose proof (T _ H1) as T1.
    assert (I : In x (mine t (rl_trs l))) by (apply filter_In; split; auto; lia).
    apply In_nth_error in I. destruct I as [k Hk]. exists (Z.of_nat k), x.
    rewrite frozen_tidrange by (auto; lia). destruct (Z.of_nat k <? 0) eqn:E; [lia|]. rewrite Nat2Z.id, Hk. auto.
Qed.

Lemma mig_ids_total tids n m : forall l, Forall (fun x => 0 <= t_task x < tids) l ->
  Forall (fun x => exists u, aread m (t_task x) = Ok u /\ 0 <= u < n) l ->
  exists l', mig_ids tids n m l = Ok l'.
Proof.
  induction l as [|x l IH]; simpl; intros H1 H2; eauto. inversion H1; subst. inversion H2; subst.
  destruct H5 as [u [U1 U2]]. destruct ((0 <=? t_task x) && (t_task x <? tids)) eqn:E; [|lia]. simpl. rewrite U1. simpl.
  destruct ((0 <=? u) && (u <? n)) eqn:E2; [|lia]. simpl. destruct (IH H4 H6) as [l' E']. rewrite E'. simpl. eauto.
Qed.

Lemma mig_check_total k : forall i m off l, StronglySorted bytask l -> 0 <= i -> i + Z.of_nat k <= Z.of_nat (length m) ->
  (forall t, i <= t <= i + Z.of_nat k -> aread off t = Ok (cnt_lt t l)) ->
  (forall x, In x l -> exists u, aread m (t_task x) = Ok u /\ 0 <= u) ->
  mig_check k i m off = Ok tt.
Proof.
  induction k as [|k IH]; simpl; intros i m off l Hs Hi Hm Ho Hx; auto.
  destruct (aread_lt m i) as [u Eu]; [lia|]. rewrite Eu. simpl. rewrite (Ho i), (Ho (i + 1)) by lia. simpl.
  assert (R : mig_check k (i + 1) m off = Ok tt) by (apply (IH (i + 1) m off l); auto; try lia; intros; apply Ho; lia).
  destruct (u <? 0) eqn:E; auto. rewrite R.
  assert (N : mine i l = []).
  { destruct (mine i l) as [|x r] eqn:Em; auto. assert (In x (mine i l)) by (rewrite Em; left; auto).
    apply filter_In in H. destruct H as [H1 H2]. destruct (Hx _ H1) as [v [V1 V2]]. assert (t_task x = i) by lia. rewrite H in V1.
    rewrite V1 in Eu. injection Eu as Eu. lia. }
  pose proof (mine_length l i Hs). rewrite N in H. simpl in H. destruct (cnt_lt i l =? cnt_lt (i + 1) l) eqn:E2; [auto|lia].
Qed.

Lemma mig_check_abort k : forall i m off l, StronglySorted bytask l -> 0 <= i -> i + Z.of_nat k <= Z.of_nat (length m) ->
  (forall t, i <= t <= i + Z.of_nat k -> aread off t = Ok (cnt_lt t l)) ->
  (exists x u, In x l /\ i <= t_task x < i + Z.of_nat k /\ aread m (t_task x) = Ok u /\ u < 0) ->
  mig_check k i m off = Abort.
Proof.
  induction k as [|k IH]; simpl; intros i m off l Hs Hi Hm Ho Hx; [destruct Hx as [x [u [_ [H _]]]]; lia|].
  destruct (aread_lt m i) as [v Eu]; [lia|]. rewrite Eu. simpl. rewrite (Ho i), (Ho (i + 1)) by lia. simpl.
  destruct Hx as [x [u [X1 [X2 [X3 X4]]]]]. destruct (Z.eq_dec (t_task x) i) as [E|E].
  - rewrite E in X3. rewrite X3 in Eu. injection Eu as <-. destruct (u <? 0) eqn:E2; [|lia].
    assert (I : In x (mine i l)) by (apply filter_In; split; auto; lia).
    pose proof (mine_length l i Hs). destruct (mine i l); [destruct I|]. simpl in H.
    destruct (cnt_lt i l =? cnt_lt (i + 1) l) eqn:E3; [lia|]. auto.
  - assert (R : mig_check k (i + 1) m off = Abort).
    { apply (IH (i + 1) m off l); auto; try lia. intros; apply Ho; lia. exists x, u. split; auto. split; [lia|auto]. }
    rewrite R. destruct (v <? 0); auto. destruct (cnt_lt i l =? cnt_lt (i + 1) l); auto.
Qed.

Lemma migrate_total l qg m n : Frozen l -> is_qsort trgen_cmp qg -> 0 <= n -> rl_tids l <= Z.of_nat (length m) ->
  (forall x, In x (rl_trs l) -> exists u, aread m (t_task x) = Ok u /\ 0 <= u < n) ->
  exists l', rl_migrate qg l m n = Ok l'.
Proof.
  intros F Hq Hn Hm Hx. unfold rl_migrate. destruct (fz_off _ F) as [offs [E1 [E2 E3]]]. rewrite E1.
  rewrite (mig_check_total (Z.to_nat (rl_tids l)) 0 m offs (rl_trs l)).
  2: apply F. 2: lia. 2: lia.
  2:{ intros t Ht. apply E3. pose proof (fz_tids _ F). lia. }
  2:{ intros x Hi. destruct (Hx x Hi) as [u [U1 U2]]. exists u. split; auto; lia. }
  simpl. destruct (mig_ids_total (rl_tids l) n m (rl_trs l)) as [t Et].
  - apply F.
  - apply Forall_forall. auto.
  - rewrite Et. simpl.
    destruct (mig_ids_ok _ _ _ _ _ Et) as [M1 M2].
    set (l1 := match rl_trange l with None => l | Some _ => set_trange l (Some t) end) in *.
    assert (T1 : rl_trs l1 = t).
    { unfold l1, rl_trs in *. destruct (rl_trange l) eqn:E; simpl; auto. rewrite E; simpl. destruct t; auto; discriminate. }
    assert (T2 : rl_trs (set_tids l1 n) = t) by (rewrite <- T1; reflexivity).
    destruct (sortRanges_same qg (set_tids l1 n)) as [S1 [S2 [S3 S4]]].
    pose proof (sortRanges_trs qg (set_tids l1 n) Hq) as S5. rewrite T2 in S5.
    destruct (Hq t) as [P S].
    assert (T : Forall (fun x => 0 <= t_task x < n) t).
    { apply Forall_forall. intros y Hy. apply In_nth_error in Hy. destruct Hy as [k Hk].
      destruct (nth_error (rl_trs l) k) as [x|] eqn:Ex.
      - destruct (M2 _ _ Ex) as [y' [Y1 [Y2 [Y3 _]]]]. congruence.
      - apply nth_error_None in Ex. apply nth_error_Some_lt in Hk. lia. }
    destruct (updateOffsets_ok (sortRanges qg (set_tids l1 n))) as [l2 [U1 _]].
    + rewrite S3. simpl. unfold l1. destruct (rl_trange l); simpl; apply (fz_si _ F).
    + rewrite S2. auto.
    + rewrite S5. apply bytask_of_trle; auto.
    + rewrite S5, S2. simpl. eapply Forall_perm; eauto.
    + eauto.
Qed.

Lemma migrate_abort l qg m n : Frozen l -> rl_tids l <= Z.of_nat (length m) ->
  (exists x u, In x (rl_trs l) /\ aread m (t_task x) = Ok u /\ u < 0) ->
  rl_migrate qg l m n = Abort.
Proof.
  intros F Hm [x [u [X1 [X2 X3]]]]. unfold rl_migrate. destruct (fz_off _ F) as [offs [E1 [E2 E3]]]. rewrite E1.
  rewrite (mig_check_abort (Z.to_nat (rl_tids l)) 0 m offs (rl_trs l)); auto.
  - apply F.
  - lia.
  - lia.
  - intros t Ht. apply E3. pose proof (fz_tids _ F). lia.
  - exists x, u. pose proof (fz_tasks _ F) as T. rewrite Forall_forall in T. specialize (T _ X1). split; auto. split; [lia|auto].
Qed.

Lemma migrate_ranges l qg m n l' : Frozen l -> is_qsort trgen_cmp qg -> 0 <= n -> rl_migrate qg l m n = Ok l' ->
  forall u b g, HasRange l' u b g <-> exists t, aread m t = Ok u /\ HasRange l t b g.
Proof.
  intros F Hq Hn H u b g. pose proof (migrate_ok _ _ _ _ _ F Hq Hn H) as [F' _].
  rewrite (hasrange_in l') by auto.
  assert (X : (exists t, aread m t = Ok u /\ HasRange l t b g) <-> exists x, In x (rl_trs l) /\ aread m (t_task x) = Ok u /\ t_box x = b /\ t_tag x = g).
  { split.
    - intros [t [T1 T2]]. apply hasrange_in in T2; auto. destruct T2 as [x [X1 [X2 X3]]]. subst t. eauto.
    - intros [x [X1 [X2 X3]]]. exists (t_task x). split; auto. apply hasrange_in; auto. eauto. }
  rewrite X. clear X.
  unfold rl_migrate in H. destruct (rl_off l) as [off|] eqn:Eo; [|discriminate].
  apply obind_ok in H. destruct H as [[] [H1 H]]. apply obind_ok in H. destruct H as [t [H2 H]].
  destruct (mig_ids_ok _ _ _ _ _ H2) as [M1 M2].
  set (l1 := match rl_trange l with None => l | Some _ => set_trange l (Some t) end) in *.
  assert (T1 : rl_trs l1 = t).
  { unfold l1, rl_trs in *. destruct (rl_trange l) eqn:E; simpl; auto. rewrite E; simpl. destruct t; auto; discriminate. }
  assert (T2 : rl_trs (set_tids l1 n) = t) by (rewrite <- T1; reflexivity).
  destruct (sortRanges_same qg (set_tids l1 n)) as [S1 [S2 [S3 S4]]].
  pose proof (sortRanges_trs qg (set_tids l1 n) Hq) as S5. rewrite T2 in S5.
  destruct (Hq t) as [P S].
  assert (T : Forall (fun x => 0 <= t_task x < n) t).
  { apply Forall_forall. intros y Hy. apply In_nth_error in Hy. destruct Hy as [k Hk].
    destruct (nth_error (rl_trs l) k) as [x|] eqn:Ex.
    - destruct (M2 _ _ Ex) as [y' [Y1 [Y2 [Y3 _]]]]. congruence.
    - apply nth_error_None in Ex. apply nth_error_Some_lt in Hk. lia. }
  destruct (updateOffsets_ok (sortRanges qg (set_tids l1 n))) as [l2 [U1 [U2 [U3 _]]]].
  { rewrite S3. simpl. unfold l1. destruct (rl_trange l); simpl; apply (fz_si _ F). }
  { rewrite S2. auto. }
  { rewrite S5. apply bytask_of_trle; auto. }
  { rewrite S5, S2. simpl. eapply Forall_perm; eauto. }
  assert (l2 = l') by congruence. subst l2. rewrite S5 in U3.
  assert (Key : forall la lb : list trg, (forall k, In k (map key la) -> In k (map key lb)) ->
     forall x, In x la -> exists y, In y lb /\ key y = key x).
  { intros la lb Hab x Hx. specialize (Hab (key x) (in_map key la x Hx)). apply in_map_iff in Hab. destruct Hab as [y [Y1 Y2]]. eauto. }
  split.
  - intros [x [X1 [X2 [X3 X4]]]].
    destruct (Key (rl_trs l') t) with (x := x) as [y [Y1 Y2]]; auto.
    { intros k Hk. rewrite U3 in Hk. eapply Permutation_in; [apply Permutation_map, Permutation_sym, P|auto]. }
    apply key_eq in Y2. destruct Y2 as [K1 [K2 K3]]. apply In_nth_error in Y1. destruct Y1 as [k Hk].
    destruct (nth_error (rl_trs l) k) as [z|] eqn:Ez.
    2:{ apply nth_error_None in Ez. apply nth_error_Some_lt in Hk. lia. }
    destruct (M2 _ _ Ez) as [y' [Y1 [Y2 [Y3 [Y4 Y5]]]]]. assert (y' = y) by congruence. subst y'.
    exists z. split; [eapply nth_error_In; eauto|]. split; [congruence|]. split; congruence.
  - intros [z [Z1 [Z2 [Z3 Z4]]]]. apply In_nth_error in Z1. destruct Z1 as [k Hk].
    destruct (M2 _ _ Hk) as [y [Y1 [Y2 [Y3 [Y4 Y5]]]]].
    destruct (Key t (rl_trs l')) with (x := y) as [x [X1 X2]].
    { intros k' Hk'. rewrite U3. eapply Permutation_in; [apply Permutation_map, P|auto]. }
    { eapply nth_error_In; eauto. }
    apply key_eq in X2. destruct X2 as [K1 [K2 K3]]. exists x. split; auto. split; [congruence|]. split; congruence.
Qed.

Lemma norange_in l t : Frozen l -> (NoRanges l t <-> forall x, In x (rl_trs l) -> t_task x <> t).
Proof.
  intros F. unfold NoRanges. split.
  - intros H x Hx E. apply (H (t_box x) (t_tag x)). apply hasrange_in; auto. eauto.
  - intros H b g Hr. apply hasrange_in in Hr; auto. destruct Hr as [x [X1 [X2 _]]]. exact (H x X1 X2).
Qed.

Lemma At_of_nth g t : Group g -> 0 <= t < g_size g -> exists lid, At g t lid.
Proof.
  intros G Ht. pose proof (gr_len _ G). destruct (nth_error (g_loc g) (Z.to_nat t)) as [lid|] eqn:E.
  - exists lid. split; auto.
  - apply nth_error_None in E. lia.
Qed.
Lemma At_fun g t l1 l2 : At g t l1 -> At g t l2 -> l1 = l2.
Proof. intros [_ H1] [_ H2]. congruence. Qed.

Lemma entry_migrate qg oldg newg m e :
  is_qsort trgen_cmp qg -> Group oldg -> Group newg -> LocMap oldg newg m ->
  FrozenList (snd e) -> rl_tids (snd e) = g_size oldg -> (forall t, fst e = RIsingle t -> 0 <= t < g_size oldg) ->
  (forall t lid, At oldg t lid -> (forall u, ~ At newg u lid) -> NoRanges (snd e) t) ->
  exists e', mig_entry qg oldg newg m e = Ok e' /\ Renamed oldg newg e e'.
Proof.
  intros Hq Go Gn [Lm Mm] FL Et Hs Hrem. destruct (FrozenList_Frozen _ FL) as [F _].
  destruct e as [i r]. simpl in *. unfold mig_entry. simpl.
  assert (Hi : exists i', match i with
          | RIsingle t => cassert (t <? g_size oldg) (do t' <- aread m t; Ok (RIsingle t'))
          | _ => Ok i end = Ok i' /\
    match i with
    | RIsingle t => exists u, i' = RIsingle u /\
        forall lid, At oldg t lid -> At newg u lid \/ u = -1 /\ forall v, ~ At newg v lid
    | i => i' = i
    end).
  { destruct i as [| |t|o]; eauto. specialize (Hs t eq_refl). destruct (t <? g_size oldg) eqn:E; [|lia]. simpl.
    destruct (At_of_nth oldg t Go Hs) as [lid Hl]. destruct (Mm _ _ Hl) as [u [U1 U2]].
    rewrite (aread_nth _ _ u) by (auto; lia). simpl. eexists. split; [reflexivity|]. exists u. split; auto.
    intros lid' Hl'. rewrite <- (At_fun _ _ _ _ Hl Hl'). auto. }
  destruct Hi as [i' [Ei Pi]].
  assert (Ei2 : match i with
          | RIsingle t => cassert (t <? g_size oldg) (do t' <- aread m t; Ok (RIsingle t'))
          | RIunknown => Ok i | RIfull => Ok i | RIintersect _ => Ok i end = Ok i') by (destruct i; auto).
  pose proof (Group_size _ Gn) as Sn.
  destruct (migrate_total r qg m (g_size newg)) as [r' Er]; auto.
  { lia. }
  { intros x Hx. pose proof (fz_tasks _ F) as T. rewrite Forall_forall in T. specialize (T _ Hx).
    destruct (At_of_nth oldg (t_task x) Go ltac:(lia)) as [lid Hl]. destruct (Mm _ _ Hl) as [u [U1 U2]].
    exists u. split; [apply aread_nth; auto; lia|]. destruct U2 as [U2|[U2 U3]]; [destruct U2; lia|].
    exfalso. pose proof (Hrem _ _ Hl U3) as N. exact (proj1 (norange_in r _ F) N x Hx eq_refl). }
  rewrite Er. exists (i', r'). split.
  { destruct i as [| |t|o]; simpl in Ei |- *; try (injection Ei as <-; reflexivity).
    destruct (t <? g_size oldg); simpl in *; [|discriminate]. destruct (aread m t); simpl in *; try discriminate. injection Ei as <-. reflexivity. }
  destruct (migrate_ok _ _ _ _ _ F Hq Sn Er) as [F' [Sp [Ti Ow]]].
  pose proof (migrate_ranges _ _ _ _ _ F Hq Sn Er) as Ra.
  unfold Renamed. simpl. split; [eapply FL_migrate; eauto|]. split; auto. split; auto.
  assert (Inv : forall t u lid, At oldg t lid -> At newg u lid -> forall v, aread m v = Ok u -> v = t).
  { intros t u lid Ht Hu v Hv. apply aread_ok in Hv. destruct Hv as [V1 V2].
    assert (V3 : 0 <= v < g_size oldg) by (assert (Z.to_nat v < length m)%nat by (apply nth_error_Some; congruence); lia).
    destruct (At_of_nth oldg v Go V3) as [lv Hlv]. destruct (Mm _ _ Hlv) as [w [W1 W2]]. assert (w = u) by congruence. subst w.
    destruct W2 as [W2|[W2 _]]; [|destruct Hu; lia]. pose proof (At_fun _ _ _ _ Hu W2). subst lv. exact (At_inj _ _ _ _ Go Hlv Ht). }
  assert (Fw : forall t u lid, At oldg t lid -> At newg u lid -> aread m t = Ok u).
  { intros t u lid Ht Hu. destruct (Mm _ _ Ht) as [w [W1 W2]]. destruct W2 as [W2|[_ W2]]; [|exfalso; eapply W2; eauto].
    rewrite (At_inj _ _ _ _ Gn Hu W2). apply aread_nth; auto. destruct Ht; lia. }
  split; [|split; [|destruct i; exact Pi]].
  - intros t u lid Ht Hu. split.
    + intros ix. rewrite Ow. split; [intros H; exists t; split; auto; eapply Fw; eauto|].
      intros [v [V1 V2]]. rewrite (Inv _ _ _ Ht Hu v V1) in V2. auto.
    + intros b g. rewrite Ra. split; [intros H; exists t; split; auto; eapply Fw; eauto|].
      intros [v [V1 V2]]. rewrite (Inv _ _ _ Ht Hu v V1) in V2. auto.
  - intros u lid Hu Hn b g Hr. apply Ra in Hr. destruct Hr as [v [V1 V2]]. apply aread_ok in V1. destruct V1 as [V0 V1].
    assert (V3 : 0 <= v < g_size oldg) by (assert (Z.to_nat v < length m)%nat by (apply nth_error_Some; congruence); lia).
    destruct (At_of_nth oldg v Go V3) as [lv Hlv]. destruct (Mm _ _ Hlv) as [w [W1 W2]]. assert (w = u) by congruence. subst w.
    destruct W2 as [W2|[W2 _]]; [|destruct Hu; lia]. pose proof (At_fun _ _ _ _ Hu W2). subst lv. eapply Hn; eauto.
Qed.

Lemma pa_migrate_ok qg p newg m :
  is_qsort trgen_cmp qg -> Stored p -> Group (pa_group p) -> Group newg ->
  g_id (pa_group p) <> g_id newg -> mig_map (pa_group p) newg = Ok m -> LocMap (pa_group p) newg m ->
  (forall i l t lid, In (i, l) (pa_lists p) -> At (pa_group p) t lid -> (forall u, ~ At newg u lid) -> NoRanges l t) ->
  exists p', pa_migrate qg p newg = Ok p' /\ pa_group p' = newg /\ pa_space p' = pa_space p /\
    Forall2 (Renamed (pa_group p) newg) (pa_lists p) (pa_lists p').
Proof.
  intros Hq St Go Gn Ne Em Lm Hrem. unfold pa_migrate. destruct (g_id (pa_group p) =? g_id newg) eqn:E; [lia|].
  rewrite Em. simpl.
  assert (X : exists l', mig_entries qg (pa_group p) newg m (pa_lists p) = Ok l' /\ Forall2 (Renamed (pa_group p) newg) (pa_lists p) l').
  { unfold Stored in St. revert St Hrem. induction (pa_lists p) as [|[i r] ls IH]; intros St Hrem; [exists []; split; auto|]. 
    cbn [mig_entries].
    destruct (St i r (or_introl eq_refl)) as [S1 [S2 [S3 S4]]].
    destruct (entry_migrate qg (pa_group p) newg m (i, r) Hq Go Gn Lm) as [e' [E1 E2]]; simpl; auto.
    { intros t lid Ht. apply (Hrem i r t lid (or_introl eq_refl)); auto. }
    rewrite E1. simpl. destruct IH as [l' [E3 E4]].
    { intros; apply St; right; auto. }
    { intros i0 l0 t lid Hl. apply (Hrem i0). right; auto. }
    rewrite E3. simpl. eexists. split; [reflexivity|]. constructor; auto. }
  destruct X as [l' [X1 X2]]. rewrite X1. simpl. eexists. split; [reflexivity|]. simpl. auto.
Qed.

Lemma pa_migrate_abort qg p newg m i l t lid :
  is_qsort trgen_cmp qg -> Stored p -> Group (pa_group p) -> Group newg ->
  g_id (pa_group p) <> g_id newg -> mig_map (pa_group p) newg = Ok m -> LocMap (pa_group p) newg m ->
  In (i, l) (pa_lists p) -> At (pa_group p) t lid -> (forall u, ~ At newg u lid) -> ~ NoRanges l t ->
  pa_migrate qg p newg = Abort.
Proof.
  intros Hq St Go Gn Ne Em Lm Hin Ht Hn Hr. unfold pa_migrate. destruct (g_id (pa_group p) =? g_id newg) eqn:E; [lia|].
  rewrite Em. simpl.
  assert (X : mig_entries qg (pa_group p) newg m (pa_lists p) = Abort); [|rewrite X; auto].
  unfold Stored in St. revert St Hin. induction (pa_lists p) as [|[j r] ls IH]; intros St Hin; [destruct Hin|]. cbn [mig_entries].
  destruct (St j r (or_introl eq_refl)) as [S1 [S2 [S3 S4]]]. destruct (FrozenList_Frozen _ S1) as [F _].
  destruct Lm as [L1 L2].
  assert (Ej : exists j', match j with
          | RIsingle t => cassert (t <? g_size (pa_group p)) (do t' <- aread m t; Ok (RIsingle t'))
          | _ => Ok j end = Ok j').
  { destruct j as [| |v|o]; eauto. specialize (S4 v eq_refl). destruct (v <? g_size (pa_group p)) eqn:E2; [|lia]. simpl.
    destruct (aread_lt m v) as [w Ew]; [lia|]. rewrite Ew. simpl. eauto. }
  destruct Ej as [j' Ej].
  assert (Dec : rl_migrate qg r m (g_size newg) = Abort \/ exists r', rl_migrate qg r m (g_size newg) = Ok r').
  { destruct (Forall_Exists_dec (fun x => exists u, aread m (t_task x) = Ok u /\ 0 <= u < g_size newg)) with (l := rl_trs r) as [A|A].
    - intros x. destruct (aread m (t_task x)) as [u| | | |] eqn:Eu; try (right; intros [v [V _]]; congruence).
      destruct ((0 <=? u) && (u <? g_size newg)) eqn:Eb; [left; exists u; split; auto; lia|right; intros [v [V1 V2]]].
      injection V1 as <-. lia.
    - right. apply migrate_total; auto; [apply (Group_size _ Gn)|lia|]. apply Forall_forall. auto.
    - left. apply Exists_exists in A. destruct A as [x [X1 X2]]. pose proof (fz_tasks _ F) as T. rewrite Forall_forall in T. specialize (T _ X1).
      destruct (At_of_nth _ (t_task x) Go ltac:(lia)) as [lx Hx]. destruct (L2 _ _ Hx) as [u [U1 U2]].
      assert (Ru : aread m (t_task x) = Ok u) by (apply aread_nth; auto; lia).
      destruct U2 as [U2|[-> U2]]; [exfalso; apply X2; exists u; split; auto; destruct U2; lia|].
      apply migrate_abort; auto; try lia. exists x, (-1). split; auto. split; auto. lia. }
  unfold mig_entry. simpl.
  assert (Step : forall k, match j with
          | RIsingle t => cassert (t <? g_size (pa_group p)) (do t' <- aread m t; Ok (RIsingle t'))
          | RIunknown => Ok j | RIfull => Ok j | RIintersect _ => Ok j end = Ok k -> True) by auto.
  destruct Hin as [Hin|Hin].
  - injection Hin as -> ->.
    assert (A : rl_migrate qg l m (g_size newg) = Abort).
    { apply migrate_abort; auto; try lia. destruct (L2 _ _ Ht) as [u [U1 U2]]. destruct U2 as [U2|[-> _]]; [exfalso; eapply Hn; eauto|].
      assert (N : ~ forall x, In x (rl_trs l) -> t_task x <> t) by (intros H; apply Hr; apply norange_in; auto).
      destruct (Exists_dec (fun x => t_task x = t) (rl_trs l)) as [Ex|Ex]; [intros; apply Z.eq_dec| |].
      - apply Exists_exists in Ex. destruct Ex as [x [X1 X2]]. exists x, (-1). split; auto. subst t. split; [|lia].
        apply aread_nth; auto. destruct Ht; lia.
      - exfalso. apply N. intros x Hx Eq. apply Ex. apply Exists_exists. eauto. }
    rewrite A. destruct i as [| |t0|o]; simpl in *; auto.
    destruct (t0 <? g_size (pa_group p)); simpl in *; auto. destruct (aread m t0); simpl in *; auto; discriminate.
  - assert (Rest : mig_entries qg (pa_group p) newg m ls = Abort) by (apply IH; auto; intros; apply St; right; auto).
    rewrite Rest. destruct Dec as [D|[r' D]]; rewrite D.
    + destruct j as [| |t0|o]; simpl in *; auto. destruct (t0 <? g_size (pa_group p)); simpl in *; auto. destruct (aread m t0); simpl in *; auto; discriminate.
    + destruct j as [| |t0|o]; simpl in *; auto. destruct (t0 <? g_size (pa_group p)); simpl in *; auto. destruct (aread m t0); simpl in *; auto; discriminate.
Qed.

(* own ranges *)
Lemma find_my_renamed oldg newg ls ls' loc : Group oldg -> Group newg ->
  At oldg (g_myid oldg) loc -> At newg (g_myid newg) loc ->
  (forall i l, In (i, l) ls -> forall t, i = RIsingle t -> 0 <= t < g_size oldg) ->
  Forall2 (Renamed oldg newg) ls ls' ->
  match find_my (g_myid oldg) ls, find_my (g_myid newg) ls' with
  | Some l, Some l' => SameShare l l' (g_myid oldg) (g_myid newg)
  | None, None => True
  | _, _ => False
  end.
Proof.
  intros Go Gn Ao An Hs H. induction H as [|[i r] [i' r'] ls ls' R H IH]; simpl; auto.
  assert (Hs' : forall i l, In (i, l) ls -> forall t, i = RIsingle t -> 0 <= t < g_size oldg) by (intros; eapply Hs; [right; eauto|eauto]).
  specialize (IH Hs'). destruct R as [R1 [R2 [R3 [R4 [R5 R6]]]]]. simpl in *.
  destruct i as [| |t|o]; try (subst i'; auto).
  - eapply R4; eauto.
  - destruct R6 as [u [-> R6]]. pose proof (Hs (RIsingle t) r (or_introl eq_refl) t eq_refl) as Ht.
    destruct (At_of_nth oldg t Go Ht) as [lt Hlt]. specialize (R6 _ Hlt).
    destruct (t =? g_myid oldg) eqn:E1.
    + assert (t = g_myid oldg) by lia. subst t. pose proof (At_fun _ _ _ _ Ao Hlt). subst lt.
      destruct R6 as [R6|[_ R6]]; [|exfalso; eapply R6; eauto].
      rewrite (At_inj _ _ _ _ Gn R6 An), Z.eqb_refl. eapply R4; eauto.
    + destruct (u =? g_myid newg) eqn:E2; auto. assert (u = g_myid newg) by lia. subst u.
      destruct R6 as [R6|[R6 _]]; [|destruct An; lia]. pose proof (At_fun _ _ _ _ An R6). subst lt.
      pose proof (At_inj _ _ _ _ Go Hlt Ao). lia.
Qed.

Lemma my_ranges_kept p p' loc : Group (pa_group p) -> Group (pa_group p') -> Stored p ->
  At (pa_group p) (g_myid (pa_group p)) loc -> At (pa_group p') (g_myid (pa_group p')) loc ->
  Forall2 (Renamed (pa_group p) (pa_group p')) (pa_lists p) (pa_lists p') ->
  forall b g, MyRange p b g <-> MyRange p' b g.
Proof.
  intros Go Gn St Ao An H b g.
  assert (Hs : forall i l, In (i, l) (pa_lists p) -> forall t, i = RIsingle t -> 0 <= t < g_size (pa_group p)).
  { intros i l Hi t. apply (St i l Hi). }
  pose proof (find_my_renamed _ _ _ _ loc Go Gn Ao An Hs H) as K.
  unfold MyRange, my_range, pa_my. destruct (g_myid (pa_group p) <? 0) eqn:E1; [destruct Ao; lia|].
  destruct (g_myid (pa_group p') <? 0) eqn:E2; [destruct An; lia|].
  destruct (find_my (g_myid (pa_group p)) (pa_lists p)), (find_my (g_myid (pa_group p')) (pa_lists p')); try contradiction.
  - apply K.
  - split; intros [n [x [X _]]]; discriminate.
Qed.

(* there and back *)
Lemma there_and_back g h e e' e'' : Group g -> Group h -> FrozenList (snd e) -> rl_tids (snd e) = g_size g ->
  (forall t lid, At g t lid -> (forall u, ~ At h u lid) -> NoRanges (snd e) t) ->
  Renamed g h e e' -> Renamed h g e' e'' ->
  rl_tids (snd e'') = rl_tids (snd e) /\ forall t, SameShare (snd e) (snd e'') t t.
Proof.
  intros Gg Gh FL Et Hrem [R1 [R2 [R3 [R4 [R5 _]]]]] [Q1 [Q2 [Q3 [Q4 [Q5 _]]]]]. split; [lia|].
  destruct (FrozenList_Frozen _ FL) as [F _]. destruct (FrozenList_Frozen _ Q1) as [F2 _].
  assert (Out : forall l t, Frozen l -> rl_tids l = g_size g -> ~ (0 <= t < g_size g) -> NoRanges l t).
  { intros l t Fl El Ht. apply norange_in; auto. intros x Hx. pose proof (fz_tasks _ Fl) as T. rewrite Forall_forall in T. specialize (T _ Hx). lia. }
  assert (Own : forall l t, Frozen l -> NoRanges l t -> forall i, ~ Owns l t i).
  { intros l t Fl Hn i O. destruct O as [n [x [X1 X2]]]. apply (Hn (t_box x) (t_tag x)). exists n, x. auto. }
  assert (None2 : forall t, NoRanges (snd e) t -> NoRanges (snd e'') t -> SameShare (snd e) (snd e'') t t).
  { intros t N1 N2. split.
    - intros i. pose proof (Own _ _ F N1 i). pose proof (Own _ _ F2 N2 i). tauto.
    - intros b g0. pose proof (N1 b g0). pose proof (N2 b g0). tauto. }
  intros t. destruct (Z_le_gt_dec 0 t) as [H0|H0].
  2:{ apply None2; apply Out; auto; try lia. }
  destruct (Z_lt_ge_dec t (g_size g)) as [H1|H1].
  2:{ apply None2; apply Out; auto; try lia. }
  destruct (At_of_nth g t Gg ltac:(lia)) as [lid Hl].
  destruct (in_dec Z.eq_dec lid (g_loc h)) as [I|I].
  - apply In_nth_error in I. destruct I as [k Hk].
    assert (Hu : At h (Z.of_nat k) lid).
    { split; [|rewrite Nat2Z.id; auto]. assert (k < length (g_loc h))%nat by (apply nth_error_Some; congruence).
      pose proof (gr_len _ Gh). lia. }
    destruct (R4 _ _ _ Hl Hu) as [A1 A2]. destruct (Q4 _ _ _ Hu Hl) as [B1 B2]. split.
    + intros i. rewrite A1, B1. tauto.
    + intros b g0. rewrite A2, B2. tauto.
  - assert (N : forall u, ~ At h u lid) by (intros u [_ U]; apply I; eapply nth_error_In; eauto).
    apply None2; [eapply Hrem; eauto|eapply Q5; eauto].
Qed.
