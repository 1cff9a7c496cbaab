(* Proofs about Model_Group: union of groups, the result *)
From Coq Require Import ZArith List Bool Lia ZifyBool ZifyNat Permutation Sorted.
From Verif Require Import Base ListFacts Model_Space Spec_Space Proof_Space Model_RangeList Spec_RangeList Proof_RangeList
  Model_Partitioner Spec_Partitioner Proof_Partitioner2 Model_Group Spec_Group Proof_Group Proof_Group2.
Import ListNotations.
Open Scope Z_scope.

Lemma li_of_In off locs x : In x (li_of off locs) <->
  exists k, nth_error locs k = Some (li_lid x) /\ li_idx x = off + Z.of_nat k.
Proof.
  unfold li_of. rewrite in_map_iff. split.
  - intros [[k lid] [<- H]]. apply In_nth_error in H. destruct H as [n H]. rewrite nth_error_combine, zcount_nth in H.
    destruct (Z.of_nat n <? Z.of_nat (length locs)) eqn:E; [|discriminate].
    destruct (nth_error locs n) eqn:E2; [|discriminate]. injection H as <- <-. simpl. eauto.
  - intros [k [H1 H2]]. exists (Z.of_nat k, li_lid x). split; [destruct x; simpl in *; f_equal; auto|].
    apply nth_error_In with (n := k). rewrite nth_error_combine, zcount_nth, H1.
    assert (k < length locs)%nat by (apply nth_error_Some; congruence).
    destruct (Z.of_nat k <? Z.of_nat (length locs)) eqn:E; [auto|lia].
Qed.

Lemma map_fst_combine {A B} : forall (l : list A) (l' : list B), length l = length l' -> map fst (combine l l') = l.
Proof. induction l; destruct l'; simpl; intros; try discriminate; auto. f_equal. auto. Qed.

Lemma li_of_idx off locs : map li_idx (li_of off locs) = map (Z.add off) (zcount (Z.of_nat (length locs))).
Proof.
  unfold li_of. rewrite map_map. simpl. rewrite <- map_map with (f := fst) (g := Z.add off). f_equal.
  apply map_fst_combine. pose proof (zcount_length (Z.of_nat (length locs))). lia.
Qed.

Definition all_li (g1 g2 : group) := li_of 0 (g_loc g1) ++ li_of (g_size g1) (g_loc g2).

Section UNION.
  Variables g1 g2 : group.
  Hypothesis G1 : Group g1.
  Hypothesis G2 : Group g2.
  Notation s1 := (g_size g1).
  Notation s2 := (g_size g2).

  Lemma all_In x : In x (all_li g1 g2) <->
    (0 <= li_idx x < s1 /\ At g1 (li_idx x) (li_lid x)) \/ (s1 <= li_idx x < s1 + s2 /\ At g2 (li_idx x - s1) (li_lid x)).
  Proof.
    unfold all_li. rewrite in_app_iff, !li_of_In. pose proof (gr_len _ G1). pose proof (gr_len _ G2). unfold At. split.
    - intros [[k [K1 K2]]|[k [K1 K2]]].
      + assert (k < length (g_loc g1))%nat by (apply nth_error_Some; congruence). left. rewrite K2.
        replace (Z.to_nat (0 + Z.of_nat k)) with k by lia. repeat split; auto; lia.
      + assert (k < length (g_loc g2))%nat by (apply nth_error_Some; congruence). right. rewrite K2.
        replace (Z.to_nat (s1 + Z.of_nat k - s1)) with k by lia. repeat split; auto; lia.
    - intros [[K1 [K2 K3]]|[K1 [K2 K3]]].
      + left. eexists. split; [exact K3|]. lia.
      + right. eexists. split; [exact K3|]. lia.
  Qed.

  Lemma all_NoDup : NoDup (map li_idx (all_li g1 g2)).
  Proof.
    unfold all_li. rewrite map_app, !li_of_idx. pose proof (gr_len _ G1). pose proof (gr_len _ G2).
    apply NoDup_app_intro.
    - apply FinFun.Injective_map_NoDup; [intros a b; lia|apply zcount_NoDup].
    - apply FinFun.Injective_map_NoDup; [intros a b; lia|apply zcount_NoDup].
    - intros x Hx Hy. apply in_map_iff in Hx, Hy. destruct Hx as [a [<- Ha]], Hy as [b [E Hb]].
      apply zcount_In in Ha, Hb. lia.
  Qed.

  Variable q : list lididx -> list lididx.
  Hypothesis Hq : is_qsort lididx_cmp q.
  Notation li := (q (all_li g1 g2)).
  Notation D := (dd (-1) li).
  Notation lids := (Z.of_nat (length D)).

  Lemma q_In x : In x li <-> In x (all_li g1 g2).
  Proof. destruct (Hq (all_li g1 g2)) as [P _]. split; apply Permutation_in; auto. apply Permutation_sym; auto. Qed.

  Lemma li_pos x : In x li -> 0 <= li_lid x.
  Proof.
    intros H. apply q_In, all_In in H. destruct H as [[_ [_ H]]|[_ [_ H]]]; apply nth_error_In in H.
    - apply (gr_pos _ G1 _ H).
    - apply (gr_pos _ G2 _ H).
  Qed.

  Lemma D_sorted : StronglySorted Z.lt D.
  Proof.
    destruct (Hq (all_li g1 g2)) as [_ S]. apply dd_sorted; auto. intros x Hx. pose proof (li_pos _ Hx). lia.
  Qed.
  Lemma sorted_NoDup l : StronglySorted Z.lt l -> NoDup l.
  Proof. induction 1; constructor; auto. rewrite Forall_forall in H0. intros C. specialize (H0 _ C). lia. Qed.
  Lemma D_NoDup : NoDup D.
  Proof. apply sorted_NoDup, D_sorted. Qed.

  Lemma D_In lid : In lid D <-> In lid (g_loc g1) \/ In lid (g_loc g2).
  Proof.
    split.
    - intros H. apply dd_In in H. destruct H as [x [Hx <-]]. apply q_In, all_In in Hx.
      destruct Hx as [[_ [_ H]]|[_ [_ H]]]; apply nth_error_In in H; auto.
    - intros H.
      assert (X : exists x, In x li /\ li_lid x = lid).
      { destruct H as [H|H]; apply In_nth_error in H; destruct H as [k Hk].
        - exists (mkLi lid (Z.of_nat k)). split; auto. apply q_In. unfold all_li. apply in_or_app. left. apply li_of_In. simpl. eauto.
        - exists (mkLi lid (s1 + Z.of_nat k)). split; auto. apply q_In. unfold all_li. apply in_or_app. right. apply li_of_In. simpl. eauto. }
      destruct X as [x [Hx <-]]. destruct (dd_covers _ (-1) _ Hx) as [E|]; auto. pose proof (li_pos _ Hx). lia.
  Qed.

  Lemma s1_le : s1 <= lids.
  Proof.
    rewrite <- (gr_len _ G1). apply inj_le. apply NoDup_incl_length; [apply G1|]. intros x Hx. apply D_In; auto.
  Qed.
  Lemma s2_le : s2 <= lids.
  Proof.
    rewrite <- (gr_len _ G2). apply inj_le. apply NoDup_incl_length; [apply G2|]. intros x Hx. apply D_In; auto.
  Qed.

  Lemma NoDup_idx_split pre x post : li = pre ++ x :: post ->
    forall y, In y pre -> li_idx y <> li_idx x /\ (li_lid y = li_lid x -> (li_idx y < s1 <-> ~ (li_idx x < s1))).
  Proof.
    intros El y Hy.
    assert (N : li_idx y <> li_idx x).
    { pose proof all_NoDup as ND. destruct (Hq (all_li g1 g2)) as [P _].
      apply (Permutation_map li_idx) in P. eapply Permutation_NoDup in ND; [|exact P].
      rewrite El, map_app in ND. simpl in ND. apply NoDup_remove_2 in ND. intros E. apply ND. apply in_or_app. left.
      rewrite <- E. apply in_map. auto. }
    split; auto. intros E.
    assert (Iy : In y (all_li g1 g2)) by (apply q_In; rewrite El; apply in_or_app; auto).
    assert (Ix : In x (all_li g1 g2)) by (apply q_In; rewrite El; apply in_elt).
    apply all_In in Iy, Ix. destruct Iy as [[Y1 Y2]|[Y1 Y2]], Ix as [[X1 X2]|[X1 X2]]; try lia.
    - rewrite E in Y2. pose proof (At_inj g1 _ _ _ G1 X2 Y2). lia.
    - rewrite E in Y2. pose proof (At_inj g2 _ _ _ G2 X2 Y2). lia.
  Qed.

  Lemma union_loop myloc junk :
    let fresh := repeat junk (Z.to_nat lids) in
    exists s, ofold (union_step myloc s1) li (mkUst (-1) (-1) (-1) fresh fresh fresh fresh fresh) = Ok s /\
      uinv myloc s1 s2 lids li D s.
  Proof.
    intros fresh. pose proof s1_le as L1. pose proof s2_le as L2. pose proof (Group_size _ G1). pose proof (Group_size _ G2).
    apply (ofold_total _ (fun pre s => uinv myloc s1 s2 lids pre (dd (-1) pre) s)).
    - assert (Lf : Z.of_nat (length fresh) = lids) by (unfold fresh; rewrite repeat_length; lia).
      constructor; simpl; auto.
      + intros k Hk; lia.
      + constructor; auto; simpl; intros; try contradiction. destruct k; discriminate.
      + constructor; auto; simpl; intros; try contradiction. destruct k; discriminate.
    - intros pre x post s El I.
      assert (Hx : In x li) by (rewrite El; apply in_elt).
      pose proof (proj1 (q_In x) Hx) as Ix. apply all_In in Ix.
      destruct (Hq (all_li g1 g2)) as [_ S].
      eapply (union_step_ok myloc s1 s2 lids pre s x post); auto.
      + apply li_pos; auto.
      + rewrite <- El. auto.
      + rewrite <- El. lia.
      + destruct Ix as [[Ix _]|[Ix _]]; lia.
      + intros y Hy. apply li_pos. rewrite El. apply in_or_app; auto.
      + apply NoDup_idx_split with (post := post); auto.
  Qed.

  Definition newg (gid : Z) (s : ustate) : group :=
    mkGroup gid lids (us_my s) (Some (g_id g1)) (us_to1 s) (firstn (Z.to_nat s1) (us_from1 s))
      (Some (g_id g2)) (us_to2 s) (firstn (Z.to_nat s2) (us_from2 s)) (us_loc s).

  Lemma newg_props gid myloc s : uinv myloc s1 s2 lids li D s ->
    Group (newg gid s) /\ g_loc (newg gid s) = D /\
    LocMap (newg gid s) g1 (us_to1 s) /\ LocMap (newg gid s) g2 (us_to2 s) /\
    LocMap g1 (newg gid s) (firstn (Z.to_nat s1) (us_from1 s)) /\
    LocMap g2 (newg gid s) (firstn (Z.to_nat s2) (us_from2 s)) /\
    IsMyId (newg gid s) myloc.
  Proof.
    intros I. pose proof s1_le as L1. pose proof s2_le as L2. pose proof (Group_size _ G1) as Z1. pose proof (Group_size _ G2) as Z2.
    assert (EL : us_loc s = D).
    { apply nth_error_ext. intros k. destruct (Nat.lt_ge_cases k (length D)) as [Hk|Hk].
      - apply (u_loc _ _ _ _ _ _ _ I); auto.
      - pose proof (u_ll _ _ _ _ _ _ _ I). rewrite (proj2 (nth_error_None (us_loc s) k)) by lia. symmetry. apply nth_error_None. lia. }
    assert (GN : Group (newg gid s)).
    { constructor; simpl; rewrite EL; auto.
      - apply D_NoDup.
      - intros lid H. apply D_In in H. destruct H as [H|H]; [apply (gr_pos _ G1 _ H)|apply (gr_pos _ G2 _ H)]. }
    assert (AtN : forall t lid, At (newg gid s) t lid <-> 0 <= t /\ nth_error D (Z.to_nat t) = Some lid).
    { intros t lid. unfold At. simpl. rewrite EL. split; [tauto|]. intros [H1 H2]. split; auto.
      assert (Z.to_nat t < length D)%nat by (apply nth_error_Some; congruence). lia. }
    split; auto. split; auto.
    assert (TO : forall off sz g from to, Group g -> g_size g = sz -> 0 <= off ->
       (forall x, In x li -> off <= li_idx x < off + sz -> At g (li_idx x - off) (li_lid x)) ->
       (forall t lid, At g t lid -> In (mkLi lid (off + t)) li) ->
       half off sz lids li D from to -> sz <= lids ->
       LocMap (newg gid s) g to /\ LocMap g (newg gid s) (firstn (Z.to_nat sz) from)).
    { intros off sz g from to Gg Hsz Hoff HA HB [Hlf Hlt Hin Hto] Hle. split; split.
      - simpl. auto.
      - intros t lid Ht. apply AtN in Ht. destruct Ht as [T1 T2].
        destruct (Hto _ _ T2) as [[x [X1 [X2 [X3 X4]]]]|[X1 X2]].
        + exists (li_idx x - off). split; auto. left. rewrite <- X3. apply HA; auto.
        + exists (-1). split; auto. right. split; auto. intros v Hv. apply (X2 _ (HB _ _ Hv)); [|auto]. simpl. destruct Hv. lia.
      - pose proof (Group_size _ Gg). rewrite firstn_length. lia.
      - intros t lid Ht. pose proof (HB _ _ Ht) as Hx. pose proof (proj1 Ht) as Ht1.
        destruct (Hin _ Hx) as [k [K1 [K2 K3]]]; [simpl; lia|]. simpl in *.
        exists (Z.of_nat k). rewrite nth_error_firstn. destruct (Z.to_nat t <? Z.to_nat sz)%nat eqn:E; [|lia].
        replace (off + t - off) with t in K2 by lia. split; auto. left. apply AtN. rewrite Nat2Z.id. split; auto; lia. }
    destruct (TO 0 s1 g1 (us_from1 s) (us_to1 s)) as [T1 T2]; auto.
    { lia. }
    { intros x Hx Hs. apply q_In, all_In in Hx. destruct Hx as [[_ H]|[H _]]; [rewrite Z.sub_0_r; auto|lia]. }
    { intros t lid Ht. apply q_In, all_In. left. simpl. pose proof (proj1 Ht). replace (0 + t) with t by lia. split; auto. }
    { apply I. }
    destruct (TO s1 s2 g2 (us_from2 s) (us_to2 s)) as [T3 T4]; auto.
    { intros x Hx Hs. apply q_In, all_In in Hx. destruct Hx as [[H _]|[_ H]]; [lia|auto]. }
    { intros t lid Ht. apply q_In, all_In. right. simpl. pose proof (proj1 Ht). replace (s1 + t - s1) with t by lia. split; auto. lia. }
    { apply I. }
    split; auto. split; auto. split; auto. split; auto.
    unfold IsMyId. simpl. destruct (u_my _ _ _ _ _ _ _ I) as [[k [K1 K2]]|[K1 K2]].
    - left. apply AtN. rewrite K2, Nat2Z.id. split; auto. lia.
    - right. split; auto. intros t Ht. apply AtN in Ht. destruct Ht as [_ Ht]. apply K2. eapply nth_error_In; eauto.
  Qed.

  Lemma full_first : lids = s1 <-> forall lid, In lid (g_loc g2) -> In lid (g_loc g1).
  Proof.
    split.
    - intros E lid H. assert (I : incl D (g_loc g1)).
      { apply NoDup_length_incl; [apply G1| |intros x Hx; apply D_In; auto]. pose proof (gr_len _ G1). lia. }
      apply I, D_In. auto.
    - intros H. pose proof s1_le. assert (incl D (g_loc g1)) by (intros x Hx; apply D_In in Hx; destruct Hx; auto).
      apply NoDup_incl_length in H1; [|apply D_NoDup]. pose proof (gr_len _ G1). lia.
  Qed.
  Lemma full_second : lids = s2 <-> forall lid, In lid (g_loc g1) -> In lid (g_loc g2).
  Proof.
    split.
    - intros E lid H. assert (I : incl D (g_loc g2)).
      { apply NoDup_length_incl; [apply G2| |intros x Hx; apply D_In; auto]. pose proof (gr_len _ G2). lia. }
      apply I, D_In. auto.
    - intros H. pose proof s2_le. assert (incl D (g_loc g2)) by (intros x Hx; apply D_In in Hx; destruct Hx; auto).
      apply NoDup_incl_length in H1; [|apply D_NoDup]. pose proof (gr_len _ G2). lia.
  Qed.

  Lemma union_ok junk gid myloc :
    exists u, new_union_group q junk gid myloc g1 g2 = Ok u /\
      let g := union_result g1 g2 u in
      Group g /\
      (forall lid, In lid (g_loc g) <-> In lid (g_loc g1) \/ In lid (g_loc g2)) /\
      (u = UFirst <-> forall lid, In lid (g_loc g2) -> In lid (g_loc g1)) /\
      (u = USecond -> forall lid, In lid (g_loc g1) -> In lid (g_loc g2)) /\
      (forall h, u = UNew h ->
        ~ (forall lid, In lid (g_loc g1) -> In lid (g_loc g2)) /\
        StronglySorted Z.lt (g_loc h) /\ g_id h = gid /\
        g_parent h = Some (g_id g1) /\ g_parent2 h = Some (g_id g2) /\
        LocMap h g1 (g_toParent h) /\ LocMap g1 h (g_fromParent h) /\
        LocMap h g2 (g_toParent2 h) /\ LocMap g2 h (g_fromParent2 h) /\
        IsMyId h myloc).
  Proof.
    unfold new_union_group. rewrite (Group_locs _ G1), (Group_locs _ G2). cbn [obind]. fold (all_li g1 g2).
    rewrite count_dd.
    destruct (lids =? s1) eqn:E1.
    { exists UFirst. split; auto. simpl. assert (E : lids = s1) by lia. pose proof (proj1 full_first E) as F. split; auto.
      split; [intros lid; split; [auto|intros [H|H]; auto]|]. split; [split; auto|]. split; [discriminate|discriminate]. }
    destruct (lids =? s2) eqn:E2.
    { exists USecond. split; auto. simpl. assert (E : lids = s2) by lia. pose proof (proj1 full_second E) as F. split; auto.
      split; [intros lid; split; [auto|intros [H|H]; auto]|].
      split; [split; [discriminate|intros H; apply full_first in H; lia]|]. split; [auto|discriminate]. }
    destruct (union_loop myloc junk) as [s [E I]]. rewrite E. cbn [obind].
    destruct (newg_props gid myloc s I) as [P1 [P2 [P3 [P4 [P5 [P6 P7]]]]]].
    exists (UNew (newg gid s)). split; auto. simpl union_result. cbv zeta.
    split; auto. split; [intros lid; rewrite P2; apply D_In|].
    split; [split; [discriminate|intros H; apply full_first in H; lia]|]. split; [discriminate|].
    intros h Eh. injection Eh as <-. split; [intros H; apply full_second in H; lia|].
    split; [rewrite P2; apply D_sorted|]. split; auto. split; auto. split; auto.
  Qed.
End UNION.

(* the maps are determined by the locations *)
Lemma LocMap_unique g p to to' : Group g -> Group p -> LocMap g p to -> LocMap g p to' -> to = to'.
Proof.
  intros Hg Hp [L1 M1] [L2 M2]. apply nth_error_ext. intros k.
  destruct (nth_error (g_loc g) k) as [lid|] eqn:E.
  - assert (At g (Z.of_nat k) lid).
    { split; [|rewrite Nat2Z.id; auto]. assert (k < length (g_loc g))%nat by (apply nth_error_Some; congruence).
      pose proof (gr_len _ Hg). lia. }
    destruct (M1 _ _ H) as [u [U1 U2]], (M2 _ _ H) as [v [V1 V2]]. rewrite Nat2Z.id in *. rewrite U1, V1. f_equal.
    destruct U2 as [U2|[-> U2]], V2 as [V2|[-> V2]]; auto.
    + eapply At_inj; eauto.
    + exfalso. eapply V2; eauto.
    + exfalso. eapply U2; eauto.
  - apply nth_error_None in E. pose proof (gr_len _ Hg).
    rewrite (proj2 (nth_error_None to k)) by lia. symmetry. apply nth_error_None. lia.
Qed.

Lemma sorted_same l l' : StronglySorted Z.lt l -> StronglySorted Z.lt l' -> (forall x, In x l <-> In x l') -> l = l'.
Proof.
  intros S. revert l'. induction S as [|a l S IH F]; intros l' S' H.
  - destruct l' as [|b l']; auto. exfalso. apply (H b). left; auto.
  - destruct S' as [|b l' S' F'].
    + exfalso. apply (H a). left; auto.
    + rewrite Forall_forall in F, F'. assert (a = b).
      { destruct (proj1 (H a) (or_introl eq_refl)) as [|Ha]; auto.
        destruct (proj2 (H b) (or_introl eq_refl)) as [|Hb]; auto. specialize (F _ Hb). specialize (F' _ Ha). lia. }
      subst b. f_equal. apply IH; auto. intros x. split; intros Hx.
      * destruct (proj1 (H x) (or_intror Hx)) as [<-|]; auto. specialize (F _ Hx). lia.
      * destruct (proj2 (H x) (or_intror Hx)) as [<-|]; auto. specialize (F' _ Hx). lia.
Qed.

Lemma with_myid_At g m t lid : At (with_myid g m) t lid <-> At g t lid.
Proof. reflexivity. Qed.
Lemma with_myid_Group g m : Group g -> Group (with_myid g m).
Proof. intros [A B C]. constructor; auto. Qed.

(* all processes compute the same group *)
Lemma union_agree q q' junk junk' gid myloc myloc' g1 g2 a b u :
  is_qsort lididx_cmp q -> is_qsort lididx_cmp q' -> Group g1 -> Group g2 ->
  new_union_group q junk gid myloc g1 g2 = Ok u ->
  exists u', new_union_group q' junk' gid myloc' (with_myid g1 a) (with_myid g2 b) = Ok u' /\
    match u, u' with
    | UFirst, UFirst => True
    | USecond, USecond => True
    | UNew g, UNew g' => g' = with_myid g (g_myid g')
    | _, _ => False
    end.
Proof.
  intros Hq Hq' G1 G2 E.
  destruct (union_ok g1 g2 G1 G2 q Hq junk gid myloc) as [u0 [E0 [A1 [A2 [A3 [A4 A5]]]]]].
  assert (u0 = u) by congruence. subst u0.
  destruct (union_ok _ _ (with_myid_Group _ a G1) (with_myid_Group _ b G2) q' Hq' junk' gid myloc') as [u' [E1 [B1 [B2 [B3 [B4 B5]]]]]].
  exists u'. split; auto. simpl g_loc in *.
  destruct u as [| |g]; destruct u' as [| |g']; auto.
  - destruct A3 as [A3 _]. specialize (A3 eq_refl). apply B3 in A3. discriminate.
  - destruct A3 as [A3 _]. specialize (A3 eq_refl). apply B3 in A3. discriminate.
  - destruct B3 as [B3 _]. specialize (B3 eq_refl). apply A3 in B3. discriminate.
  - destruct (B5 _ eq_refl) as [N _]. apply N. apply A4; auto.
  - destruct B3 as [B3 _]. specialize (B3 eq_refl). apply A3 in B3. discriminate.
  - destruct (A5 _ eq_refl) as [N _]. apply N. apply B4; auto.
  - destruct (A5 _ eq_refl) as [_ [A6 [A7 [A8 [A9 [A10 [A11 [A12 [A13 _]]]]]]]]].
    destruct (B5 _ eq_refl) as [_ [B6 [B7 [B8 [B9 [B10 [B11 [B12 [B13 _]]]]]]]]].
    simpl in A1, A2, B1, B2.
    assert (EL : g_loc g' = g_loc g) by (apply sorted_same; auto; intros x; rewrite A2, B2; tauto).
    assert (ES : g_size g' = g_size g) by (rewrite <- (gr_len _ A1), <- (gr_len _ B1), EL; auto).
    assert (AE : forall t lid, At g' t lid <-> At g t lid) by (intros; unfold At; rewrite EL, ES; tauto).
    assert (T1 : forall p to, LocMap g' p to -> LocMap g p to).
    { intros p to [X Y]. split; [rewrite <- ES; auto|]. intros t lid H. apply Y, AE; auto. }
    assert (T2 : forall p to, LocMap p g' to -> LocMap p g to).
    { intros p to [X Y]. split; auto. intros t lid H. destruct (Y _ _ H) as [v [V1 V2]]. exists v. split; auto.
      rewrite AE in V2. destruct V2 as [|[-> V2]]; auto. right. split; auto. intros w. rewrite <- AE. auto. }
    assert (K1 : g_toParent g' = g_toParent g) by (eapply LocMap_unique; [exact A1|exact G1|apply T1; exact B10|exact A10]).
    assert (K2 : g_fromParent g' = g_fromParent g) by (eapply LocMap_unique; [exact G1|exact A1|apply T2; exact B11|exact A11]).
    assert (K3 : g_toParent2 g' = g_toParent2 g) by (eapply LocMap_unique; [exact A1|exact G2|apply T1; exact B12|exact A12]).
    assert (K4 : g_fromParent2 g' = g_fromParent2 g) by (eapply LocMap_unique; [exact G2|exact A1|apply T2; exact B13|exact A13]).
    unfold with_myid. destruct g', g; simpl in *. congruence.
Qed.

(* locations and shrinking *)
Lemma shrink_locmaps g g2 : Group g -> Group g2 ->
  ParentMaps (g_size g) (g_size g2) (g_toParent g2) (g_fromParent g2) ->
  (forall k t, nth_error (g_toParent g2) k = Some t -> nth_error (g_loc g2) k = nth_error (g_loc g) (Z.to_nat t)) ->
  LocMap g2 g (g_toParent g2) /\ LocMap g g2 (g_fromParent g2).
Proof.
  intros G G2 P EL. pose proof (gr_len _ G) as Lg. pose proof (gr_len _ G2) as Lg2. split; split.
  - apply P.
  - intros t lid [T1 T2]. destruct (nth_error (g_toParent g2) (Z.to_nat t)) as [u|] eqn:E.
    2:{ apply nth_error_None in E. pose proof (pm_toLen _ _ _ _ P). lia. }
    exists u. split; auto. left. split; [apply (pm_to _ _ _ _ P t u); auto; lia|]. rewrite <- (EL _ _ E). auto.
  - apply P.
  - intros t lid [T1 T2]. destruct (nth_error (g_fromParent g2) (Z.to_nat t)) as [u|] eqn:E.
    2:{ apply nth_error_None in E. pose proof (pm_fromLen _ _ _ _ P). lia. }
    exists u. split; auto. destruct (pm_from _ _ _ _ P t u ltac:(lia) E) as [->|[U1 U2]].
    + right. split; auto. intros v [V1 V2]. destruct (nth_error (g_toParent g2) (Z.to_nat v)) as [w|] eqn:Ew.
      2:{ apply nth_error_None in Ew. pose proof (pm_toLen _ _ _ _ P). lia. }
      rewrite (EL _ _ Ew) in V2. destruct (pm_to _ _ _ _ P v w ltac:(lia) Ew) as [W1 W2].
      pose proof (NoDup_nth_error_inj _ _ _ _ (gr_nodup _ G) T2 V2). assert (t = w) by lia. subst w.
      rewrite W2 in E. injection E as E. lia.
    + left. split; auto. rewrite (EL _ _ U2). auto.
Qed.

Lemma zcount_sorted n : StronglySorted Z.lt (zcount n).
Proof.
  unfold zcount. generalize (Z.to_nat n). intros k. generalize O. induction k as [|k IH]; intros m; simpl; constructor; auto.
  apply Forall_forall. intros x Hx. apply in_map_iff in Hx. destruct Hx as [y [<- Hy]]. apply in_seq in Hy. lia.
Qed.
Lemma filter_sorted {A} (R : A -> A -> Prop) f l : StronglySorted R l -> StronglySorted R (filter f l).
Proof.
  induction 1 as [|a l S IH F]; simpl; [constructor|]. destruct (f a); auto. constructor; auto.
  rewrite Forall_forall in *. intros x Hx. apply filter_In in Hx. apply F. tauto.
Qed.
