(* Proofs for the life of a partitioning (C63) *)
From Coq Require Import ZArith List Bool Lia Permutation Sorted ZifyBool ZifyNat.
From Verif Require Import Base ListFacts Model_Space Spec_Space Proof_Space Model_RangeList Spec_RangeList
  Proof_RangeList Proof_RangeList2 Proof_RangeList3 Proof_RangeList4 Proof_RangeList5 Proof_Cover
  Model_Partitioner Spec_Partitioner Proof_Partitioner Proof_Filter Model_Group Model_Parting Spec_Parting Prop_RangeList.
Import ListNotations.
Open Scope Z_scope.

(* ---- a sorted list without ties is determined by its elements ---- *)

Lemma sorted_unique : forall l l', StronglySorted Before l -> StronglySorted Before l' -> Permutation l l' ->
  NoTies l -> l = l'.
Proof.
  induction l as [|a l IH]; intros l' S1 S2 P N.
  - apply Permutation_nil in P. auto.
  - destruct l' as [|b l']; [apply Permutation_sym, Permutation_nil in P; discriminate|].
    inversion S1 as [|? ? S1a S1b]; subst. inversion S2 as [|? ? S2a S2b]; subst.
    assert (E : a = b).
    { assert (Ib : In b (a :: l)) by (eapply Permutation_in; [apply Permutation_sym; exact P|left; auto]).
      assert (Ia : In a (b :: l')) by (eapply Permutation_in; [exact P|left; auto]).
      destruct Ib as [E|Ib]; auto. destruct Ia as [E|Ia]; auto.
      rewrite Forall_forall in S1b, S2b. specialize (S1b b Ib). specialize (S2b a Ia). unfold Before in *.
      apply N; [left; auto|right; auto| | |]; lia. }
    subst b. f_equal. apply IH; auto.
    + eapply Permutation_cons_inv; eauto.
    + intros x y Hx Hy. apply N; right; auto.
Qed.

Lemma filter_sorted {A} (R : A -> A -> Prop) f l : StronglySorted R l -> StronglySorted R (filter f l).
Proof.
  induction 1; simpl; [constructor|]. destruct (f a); auto. constructor; auto.
  rewrite Forall_forall in *. intros x Hx. apply filter_In in Hx. apply H0; tauto.
Qed.

Lemma filter_perm {A} (f : A -> bool) l l' : Permutation l l' -> Permutation (filter f l) (filter f l').
Proof.
  induction 1; simpl; auto.
  - destruct (f x); auto.
  - destruct (f x), (f y); auto. constructor.
  - eapply perm_trans; eauto.
Qed.

Lemma asked_apps cs : Forall (fun c => is_range c = true) cs -> map seen (map app_trg (map to_app cs)) = asked cs.
Proof. induction 1 as [|c cs H _ IH]; simpl; auto. destruct c; simpl in *; [|discriminate]. rewrite IH. reflexivity. Qed.

Lemma asked_own me cs : asked (filter (fun c => me =? match c with ACrange t _ _ => t | ACidx t _ => t end) cs) =
  filter (fun a => p_task a =? me) (asked cs).
Proof.
  induction cs as [|c cs IH]; simpl; auto. destruct c as [t r g|t x]; simpl.
  - unfold p_task at 1. simpl. rewrite (Z.eqb_sym t me). destruct (me =? t); simpl; rewrite IH; auto.
  - destruct (me =? t); simpl; auto.
Qed.

Lemma seen_mine me l : map seen (mine me l) = filter (fun a => p_task a =? me) (map seen l).
Proof.
  unfold mine. induction l as [|x l IH]; simpl; auto. unfold p_task at 1. simpl.
  destruct (t_task x =? me); simpl; rewrite IH; auto.
Qed.

Lemma key_seen l l' : map key l = map key l' -> map seen l = map seen l'.
Proof. exact (fun H => H). Qed.

Lemma numbered_len own : length (numbered own) = length own.
Proof. unfold numbered. rewrite combine_length, map_length, seq_length. lia. Qed.

(* the map numbers of a list are those of the specification *)
Lemma label_all (xs : list trg) :
  (forall x, nth_error xs 0 = Some x -> t_mapNo x = 0) ->
  (forall n x y, nth_error xs n = Some x -> nth_error xs (S n) = Some y ->
     t_mapNo y = t_mapNo x \/ t_mapNo y = t_mapNo x + 1) ->
  (forall n x y, nth_error xs n = Some x -> nth_error xs (S n) = Some y ->
     (t_mapNo x = t_mapNo y <-> t_tag x = t_tag y /\ t_tag x <> 0)) ->
  (forall n x, nth_error xs n = Some x -> t_mapNo x = map_no (map p_tag (map seen xs)) n) /\
  map seen_no xs = numbered (map seen xs).
Proof.
  intros H0 H1 H2.
  assert (K : forall n x, nth_error xs n = Some x -> t_mapNo x = map_no (map p_tag (map seen xs)) n).
  { induction n as [|n IH]; intros y Hy; [apply H0; auto|].
    destruct (nth_error xs n) as [x|] eqn:Hx.
    2:{ apply nth_error_None in Hx. assert (S n < length xs)%nat by (apply nth_error_Some; congruence). lia. }
    cbn [map_no]. rewrite <- (IH x eq_refl).
    assert (T : forall k z, nth_error xs k = Some z -> nth k (map p_tag (map seen xs)) 0 = t_tag z).
    { intros k z Hz. apply nth_error_nth. rewrite (map_nth_error p_tag k _ (map_nth_error seen k xs Hz)). reflexivity. }
    rewrite (T _ _ Hx), (T _ _ Hy). specialize (H1 _ _ _ Hx Hy). specialize (H2 _ _ _ Hx Hy).
    destruct (t_tag x =? t_tag y) eqn:E1; destruct (t_tag y =? 0) eqn:E2; simpl; lia. }
  split; auto. unfold numbered.
  assert (G : forall (l : list trg) k, (forall n x, nth_error l n = Some x -> t_mapNo x = map_no (map p_tag (map seen xs)) (k + n)) ->
    map seen_no l = combine (map seen l) (map (map_no (map p_tag (map seen xs))) (seq k (length l)))).
  { induction l as [|x l IH]; intros k Hl; simpl; auto. f_equal.
    - unfold seen_no. f_equal. rewrite (Hl 0%nat x eq_refl). f_equal. lia.
    - apply IH. intros n y Hy. rewrite (Hl (S n) y Hy). f_equal. lia. }
  rewrite (map_length seen). apply G. intros n x Hx. simpl. auto.
Qed.

Lemma at_map {A B} (f : A -> B) l n : option_map f (if n <? 0 then None else nth_error l (Z.to_nat n)) = at_ (map f l) n.
Proof. unfold at_. destruct (n <? 0); simpl; auto. symmetry. destruct (nth_error l (Z.to_nat n)) eqn:E; simpl.
  - apply map_nth_error; auto.
  - apply nth_error_None. rewrite map_length. apply nth_error_None; auto.
Qed.

Lemma filter_map_snd m l : filter (fun y => snd y =? m) (map seen_no l) = map seen_no (mapped m l).
Proof. unfold mapped. induction l as [|x l IH]; simpl; auto. destruct (t_mapNo x =? m); simpl; rewrite IH; auto. Qed.

(* number of maps *)
Lemma mapcount_last l t : Frozen l -> 0 <= t < rl_tids l ->
  rl_tidmapcount l t = Ok (match mine t (rl_trs l) with [] => 0 | _ =>
    match nth_error (mine t (rl_trs l)) (length (mine t (rl_trs l)) - 1) with Some x => t_mapNo x + 1 | None => 0 end end).
Proof.
  intros F Ht. unfold rl_tidmapcount.
  destruct (fz_off _ F) as [offs [Ho [Hl Hr]]]. rewrite Ho.
  replace ((0 <=? t) && (t <? rl_tids l)) with true by lia. simpl.
  rewrite (Hr t), (Hr (t + 1)) by lia. simpl.
  pose proof (fz_sorted _ F) as Hs. pose proof (mine_length _ t Hs) as ML.
  set (M := mine t (rl_trs l)) in *.
  destruct (_ =? _) eqn:E.
  - destruct M; [reflexivity|simpl in ML; lia].
  - pose proof (cnt_lt_mono t (t + 1) (rl_trs l) ltac:(lia)).
    destruct (nth_error M (length M - 1)) as [x|] eqn:Ex.
    2:{ apply nth_error_None in Ex. lia. }
    rewrite (mine_last_read l t x) by auto. simpl. destruct M; [simpl in ML; lia|reflexivity].
Qed.

Lemma maprangecount_defined l t m : Frozen l -> 0 <= t < rl_tids l ->
  mapsOK (mine t (rl_trs l)) -> cacheOK t l ->
  let c := match mine t (rl_trs l) with [] => 0 | _ =>
    match nth_error (mine t (rl_trs l)) (length (mine t (rl_trs l)) - 1) with Some x => t_mapNo x + 1 | None => 0 end end in
  (0 <= m < c -> exists l' r, rl_tidmaprangecount l t m = Ok (l', r)) /\
  (~ 0 <= m < c -> rl_tidmaprangecount l t m = Abort).
Proof.
  intros F Ht HM HC c. unfold rl_tidmaprangecount.
  destruct (fz_off _ F) as [offs [Ho [Hl Hr]]]. rewrite Ho.
  destruct (updateMapOffsets_ok l t F Ht HM HC) as [l' [U1 [U2 [U3 [U4 [U5 [U6 [U7 [U8 U9]]]]]]]]].
  rewrite U1. cbn [obind].
  destruct U3 as [U3|[_ [C1 C2]]]; [lia|]. rewrite U4 in C1, C2. fold c in C1. rewrite C1 in *. split.
  - intros Hm. replace ((0 <=? m) && (m <? c)) with true by lia. cbn [cassert].
    assert (NE : mine t (rl_trs l) <> []) by (intros E; unfold c in Hm; rewrite E in Hm; lia).
    rewrite (C2 NE (m + 1)), (C2 NE m) by lia. cbn [obind]. eauto.
  - intros Hm. replace ((0 <=? m) && (m <? c)) with false by lia. reflexivity.
Qed.

(* ---- the invariant ---- *)

Section Life.
Variables (s : space) (g : group) (pr : partitioner) (other : option opart) (cs : list acall) (T : list prange).
Hypothesis Hd : valid_dims (sp_dims s).
Hypothesis Hsz : 0 <= g_size g.
Hypothesis Hme : g_myid g < g_size g.
Hypothesis Hmg : pr_merge pr = false.
Hypothesis Hrun : pr_run pr (mkParams s g other) = Ok cs.
Hypothesis Hcs : Forall (fun c => is_range c = true) cs.
Hypothesis Htag : forall a, In a (asked cs) -> p_tag a <> -1.
Hypothesis Hties : NoTies (asked cs).
Hypothesis HT : Ordered cs T.

Definition me := g_myid g.
Definition own := own_of me T.

Record LOK (l : rlist) : Prop := {
  lo_frozen : Frozen l;
  lo_tids : rl_tids l = g_size g;
  lo_space : rl_space l = s;
  lo_cache : cacheOK me l;
  lo_maps : mapsOK (mine me (rl_trs l));
  lo_no : map seen_no (mine me (rl_trs l)) = numbered own /\ map seen (mine me (rl_trs l)) = own /\
     forall n x, nth_error (mine me (rl_trs l)) n = Some x -> t_mapNo x = map_no (map p_tag own) n }.

Record LAll (l : rlist) : Prop := {
  la_frozen : Frozen l;
  la_space : rl_space l = s;
  la_T : map seen (rl_trs l) = T;
  la_origin : exists l0, FrozenList l0 /\ rl_trs l0 = rl_trs l /\ rl_tids l0 = g_size g /\ rl_space l0 = s /\ rl_tids l = g_size g /\
     forall t i, Owns l0 t i <-> Given (sp_dims s) cs t i }.

Definition EntryOK (e : rlinfo * rlist) : Prop :=
  match fst e with
  | RIfull => LAll (snd e) /\ (0 <= me -> LOK (snd e))
  | RIsingle t => t = me /\ 0 <= me /\ LOK (snd e)
  | RIintersect _ => True
  | RIunknown => False
  end.

(* a fresh result of a run *)
Lemma fresh_list q g0 cs' l0 l : good_sorts q -> cs' = filter g0 cs ->
  run_calls s (g_size g) cs' = Ok l0 -> rl_freeze (q_gen q) (q_si q) l0 false = Ok l ->
  Frozen l /\ FrozenList l /\ rl_tids l = g_size g /\ rl_space l = s /\ rl_map_tid l = -1 /\
  Permutation (map seen (rl_trs l)) (asked cs') /\ StronglySorted Before (map seen (rl_trs l)) /\
  (0 <= me -> mapsOK (mine me (rl_trs l)) /\
    map seen_no (mine me (rl_trs l)) = numbered (map seen (mine me (rl_trs l))) /\
    forall n x, nth_error (mine me (rl_trs l)) n = Some x -> t_mapNo x = map_no (map p_tag (map seen (mine me (rl_trs l)))) n).
Proof.
  intros Hq Ecs R Fz.
  assert (Fr : Forall (fun c => is_range c = true) cs').
  { subst cs'. rewrite Forall_forall in *. intros c Hc. apply filter_In in Hc. apply Hcs; tauto. }
  destruct (run_calls_kind _ _ _ _ R) as [[_ A]|[N [F' _]]].
  2:{ exfalso. destruct cs' as [|c cs']; [congruence|]. inversion Fr. inversion F'. congruence. }
  destruct Hq as [Q1 _].
  destruct (freeze_after_appends s (g_size g) _ l0 (q_gen q) (q_si q) false A Q1 Hsz) as [l2 [G1 [G2 [G3 [G4 [G5 _]]]]]]; [discriminate|].
  assert (l2 = l) by congruence. subst l2. simpl in G5.
  destruct (Q1 (map app_trg (map to_app cs'))) as [P So].
  assert (KP : Permutation (map seen (rl_trs l)) (asked cs')).
  { rewrite (key_seen _ _ G5). rewrite <- (asked_apps cs' Fr). apply Permutation_map, Permutation_sym, P. }
  conjs; auto.
  - eapply FL_gen; eauto.
  - eapply freeze_keeps_nocache; eauto.
  - rewrite (key_seen _ _ G5). clear - So. induction So; simpl; constructor; auto.
    apply Forall_map. rewrite Forall_forall in *. intros x Hx. specialize (H x Hx). apply trgen_cmp_le in H.
    unfold Before, seen, p_task, p_tag, p_box. simpl. lia.
  - intros Hm.
    assert (Hta : forall a, In a (map to_app cs') -> a_tag a <> -1).
    { intros a Ha. apply in_map_iff in Ha. destruct Ha as [c [<- Hc]]. subst cs'. apply filter_In in Hc. destruct Hc as [Hc _].
      rewrite Forall_forall in Hcs. specialize (Hcs c Hc). destruct c as [t r gg|]; [|discriminate]. simpl.
      apply (Htag (t, r_box r, gg)). unfold asked. apply in_flat_map. exists (ACrange t r gg). split; auto. left; auto. }
    assert (Hm' : 0 <= me < g_size g) by (unfold me in *; lia).
    destruct (map_numbers_gen s _ _ _ _ _ _ _ Hsz Q1 A Fz Hta me Hm') as [N1 [N2 N3]].
    assert (Hm2 : 0 <= me < rl_tids l) by lia.
    assert (Q0 : forall n x, nth_error (mine me (rl_trs l)) n = Some x -> rl_tidrange l me (Z.of_nat n) = Ok (Some x)).
    { intros n x Hx. rewrite frozen_tidrange by auto. replace (Z.of_nat n <? 0) with false by lia. rewrite Nat2Z.id. congruence. }
    assert (Q2 : forall n x, nth_error (mine me (rl_trs l)) (S n) = Some x -> rl_tidrange l me (Z.of_nat n + 1) = Ok (Some x)).
    { intros n x Hx. replace (Z.of_nat n + 1) with (Z.of_nat (S n)) by lia. auto. }
    split.
    + apply steps_mapsOK; [intros x Hx; apply N1, (Q0 0%nat), Hx|].
      intros n x y Hx Hy. eapply N2; eauto.
    + destruct (label_all (mine me (rl_trs l))) as [L1 L2]; auto.
      * intros x Hx. apply N1, (Q0 0%nat), Hx.
      * intros n x y Hx Hy. eapply N2; eauto.
      * intros n x y Hx Hy. eapply (N3 (Z.of_nat n) (Z.of_nat n + 1)); eauto. lia.
Qed.

Lemma T_ties : NoTies T.
Proof.
  destruct HT as [P _]. intros a b Ha Hb. apply Hties; eapply Permutation_in; try (apply Permutation_sym; exact P); auto.
Qed.

Lemma run_list q sf g0 l : good_sorts q -> run_partitioner q pr (mkParams s g other) sf = Ok l ->
  (calls_of sf cs = filter g0 cs) ->
  exists l0, run_calls s (g_size g) (filter g0 cs) = Ok l0 /\ rl_freeze (q_gen q) (q_si q) l0 false = Ok l /\
    forall t i, Owns l t i <-> Given (sp_dims s) (filter g0 cs) t i.
Proof.
  intros Hq H E. destruct (run_partitioner_ok q pr (mkParams s g other) sf l Hq Hd Hsz H) as [cs2 [l0 [R1 [R2 [R3 [_ [_ [_ [O _]]]]]]]]].
  simpl in *. assert (cs2 = cs) by congruence. subst cs2. rewrite E in *. rewrite Hmg in R3. eauto.
Qed.

Lemma filter_true {A} (l : list A) : filter (fun _ => true) l = l.
Proof. induction l; simpl; congruence. Qed.

Lemma store_full q l : good_sorts q -> run_partitioner q pr (mkParams s g other) None = Ok l -> EntryOK (RIfull, l).
Proof.
  intros Hq H. destruct (run_list q None (fun _ => true) l Hq H) as [l0 [R1 [R2 O]]]; [simpl; rewrite filter_true; auto|].
  rewrite filter_true in *.
  destruct (fresh_list q (fun _ => true) cs l0 l Hq) as [F [FL [Ti [Sp [Nc [P [S M]]]]]]]; auto; [rewrite filter_true; auto|].
  assert (E : map seen (rl_trs l) = T).
  { symmetry. apply sorted_unique; auto; try apply HT; [|apply T_ties].
    apply Permutation_sym. eapply perm_trans; [exact P|apply HT]. }
  split; simpl.
  - constructor; auto. exists l. conjs; auto.
  - intros Hm. destruct (M Hm) as [M1 [M2 M3]].
    assert (Eo : map seen (mine me (rl_trs l)) = own).
    { rewrite seen_mine, E. unfold own, own_of. replace (me <? 0) with false by lia. reflexivity. }
    rewrite Eo in *. constructor; auto. left; auto.
Qed.

Lemma my_calls : 0 <= me -> calls_of (Some (mkRfilter (Some TidFilter) me None None)) cs =
  filter (fun c => me =? match c with ACrange t _ _ => t | ACidx t _ => t end) cs.
Proof.
  intros Hm. simpl. apply filter_ext. intros c. unfold kept, filter_call. cbn [sf_func sf_tid].
  replace (me >=? 0) with true by lia. cbn [cassert]. destruct c; simpl; destruct (me =? _); auto.
Qed.

Lemma store_my q l : good_sorts q -> 0 <= me ->
  run_partitioner q pr (mkParams s g other) (Some (mkRfilter (Some TidFilter) me None None)) = Ok l -> EntryOK (RIsingle me, l).
Proof.
  intros Hq Hm H. destruct (run_list q _ _ l Hq H (my_calls Hm)) as [l0 [R1 [R2 O]]].
  destruct (fresh_list q _ _ l0 l Hq eq_refl R1 R2) as [F [FL [Ti [Sp [Nc [P [S M]]]]]]].
  rewrite asked_own in P.
  assert (E : map seen (rl_trs l) = filter (fun a => p_task a =? me) T).
  { symmetry. apply sorted_unique; auto; try apply filter_sorted, HT.
    - apply Permutation_sym. eapply perm_trans; [exact P|apply filter_perm, HT].
    - intros a b Ha Hb. apply filter_In in Ha. apply filter_In in Hb. apply T_ties; tauto. }
  assert (Eo : map seen (mine me (rl_trs l)) = own).
  { rewrite seen_mine, E. unfold own, own_of. replace (me <? 0) with false by lia.
    clear. induction T as [|a l IH]; simpl; auto. destruct (p_task a =? me) eqn:Ea; simpl; [rewrite Ea; f_equal|]; auto. }
  destruct (M Hm) as [M1 [M2 M3]]. rewrite Eo in *. unfold EntryOK. simpl. conjs; auto. constructor; auto. left; auto.
Qed.

(* queries by map number keep the list *)
Lemma LOK_same l l' : LOK l -> cacheOK me l' -> rl_trs l' = rl_trs l -> rl_tids l' = rl_tids l -> rl_space l' = rl_space l -> Frozen l' -> LOK l'.
Proof. intros [A B C D E F] H1 H2 H3 H4 H5. constructor; try congruence; rewrite ?H2; auto. Qed.
Lemma LAll_same l l' : LAll l -> rl_trs l' = rl_trs l -> rl_tids l' = rl_tids l -> rl_space l' = rl_space l -> Frozen l' -> LAll l'.
Proof.
  intros [A B C [l0 D]] H2 H3 H4 H5. constructor; try congruence. exists l0. rewrite H2, H3. auto.
Qed.

Definition keeps {A} (f : rlist -> outcome (rlist * A)) (Q : A -> Prop) : Prop :=
  forall l l' a, LOK l -> f l = Ok (l', a) ->
    Q a /\ cacheOK me l' /\ rl_trs l' = rl_trs l /\ rl_tids l' = rl_tids l /\ rl_space l' = rl_space l /\ Frozen l'.

Definition is_own (i : rlinfo) : bool := match i with RIfull => true | RIsingle t => t =? me | _ => false end.
Definition is_full (i : rlinfo) : bool := match i with RIfull => true | _ => false end.

Lemma entry_same i l l' : EntryOK (i, l) -> cacheOK me l' -> rl_trs l' = rl_trs l -> rl_tids l' = rl_tids l -> rl_space l' = rl_space l -> Frozen l' ->
  EntryOK (i, l').
Proof.
  intros E H1 H2 H3 H4 H5. unfold EntryOK in *. simpl in *. destruct i; auto.
  - destruct E as [E1 E2]. split; [eapply LAll_same; eauto|]. intros Hm. eapply LOK_same; eauto.
  - destruct E as [E1 [E2 E3]]. conjs; auto. eapply LOK_same; eauto.
Qed.

Lemma on_my_keeps {A} (f : rlist -> outcome (rlist * A)) Q : 0 <= me -> keeps f Q -> forall L L' a,
  Forall EntryOK L -> on_my f me L = Ok (L', a) -> Q a /\ Forall EntryOK L' /\ map fst L' = map fst L.
Proof.
  intros Hm K. induction L as [|[i r] L IH]; intros L' a F H; simpl in H; [discriminate|].
  inversion F as [|? ? F1 F2]; subst.
  change (match i with RIfull => true | RIsingle t => t =? me | _ => false end) with (is_own i) in H.
  destruct (is_own i) eqn:Ei.
  - apply obind_ok in H. destruct H as [[r' a'] [H1 H2]]. simpl in H2. injection H2 as <- <-.
    assert (L0 : LOK r).
    { unfold EntryOK in F1. simpl in F1. destruct i; simpl in Ei; try discriminate; tauto. }
    destruct (K _ _ _ L0 H1) as [K0 [K1 [K2 [K3 [K4 K5]]]]]. conjs; auto. constructor; auto. eapply entry_same; eauto.
  - apply obind_ok in H. destruct H as [[L2 a'] [H1 H2]]. simpl in H2. injection H2 as <- <-.
    destruct (IH _ _ F2 H1) as [I1 [I2 I3]]. conjs; auto. simpl. congruence.
Qed.

Lemma on_all_keeps {A} (f : rlist -> outcome (rlist * A)) Q : 0 <= me -> keeps f Q -> forall L L' a,
  Forall EntryOK L -> on_all f L = Ok (L', a) -> Q a /\ Forall EntryOK L' /\ map fst L' = map fst L.
Proof.
  intros Hm K. induction L as [|[i r] L IH]; intros L' a F H; simpl in H; [discriminate|].
  inversion F as [|? ? F1 F2]; subst.
  change (match i with RIfull => true | _ => false end) with (is_full i) in H.
  destruct (is_full i) eqn:Ei.
  - apply obind_ok in H. destruct H as [[r' a'] [H1 H2]]. simpl in H2. injection H2 as <- <-.
    assert (L0 : LOK r).
    { unfold EntryOK in F1. simpl in F1. destruct i; simpl in Ei; try discriminate; tauto. }
    destruct (K _ _ _ L0 H1) as [K0 [K1 [K2 [K3 [K4 K5]]]]]. conjs; auto. constructor; auto. eapply entry_same; eauto.
  - apply obind_ok in H. destruct H as [[L2 a'] [H1 H2]]. simpl in H2. injection H2 as <- <-.
    destruct (IH _ _ F2 H1) as [I1 [I2 I3]]. conjs; auto. simpl. congruence.
Qed.

Definition defined_at {A} (f : rlist -> outcome (rlist * A)) : Prop := forall l, LOK l -> exists l' a, f l = Ok (l', a).

Lemma on_my_defined {A} (f : rlist -> outcome (rlist * A)) : 0 <= me -> defined_at f -> forall L,
  Forall EntryOK L -> existsb is_own (map fst L) = true -> exists L' a, on_my f me L = Ok (L', a).
Proof.
  intros Hm K. induction L as [|[i r] L IH]; intros F E; simpl in *; [discriminate|]. inversion F as [|? ? F1 F2]; subst.
  change (match i with RIfull => true | RIsingle t => t =? me | _ => false end) with (is_own i).
  destruct (is_own i) eqn:Ei.
  - assert (L0 : LOK r). { unfold EntryOK in F1. simpl in F1. destruct i; simpl in Ei; try discriminate; tauto. }
    destruct (K _ L0) as [l' [a Ka]]. rewrite Ka. simpl. eauto.
  - simpl in E. destruct (IH F2 E) as [L' [a Ka]]. rewrite Ka. simpl. eauto.
Qed.

Lemma on_all_defined {A} (f : rlist -> outcome (rlist * A)) : 0 <= me -> defined_at f -> forall L,
  Forall EntryOK L -> existsb is_full (map fst L) = true -> exists L' a, on_all f L = Ok (L', a).
Proof.
  intros Hm K. induction L as [|[i r] L IH]; intros F E; simpl in *; [discriminate|]. inversion F as [|? ? F1 F2]; subst.
  change (match i with RIfull => true | _ => false end) with (is_full i).
  destruct (is_full i) eqn:Ei.
  - assert (L0 : LOK r). { unfold EntryOK in F1. simpl in F1. destruct i; simpl in Ei; try discriminate; tauto. }
    destruct (K _ L0) as [l' [a Ka]]. rewrite Ka. simpl. eauto.
  - simpl in E. destruct (IH F2 E) as [L' [a Ka]]. rewrite Ka. simpl. eauto.
Qed.

Lemma on_my_abort {A} (f : rlist -> outcome (rlist * A)) : (forall l, LOK l -> f l = Abort) -> 0 <= me -> forall L,
  Forall EntryOK L -> on_my f me L = Abort.
Proof.
  intros K Hm. induction L as [|[i r] L IH]; intros F; simpl in *; auto. inversion F as [|? ? F1 F2]; subst.
  change (match i with RIfull => true | RIsingle t => t =? me | _ => false end) with (is_own i).
  destruct (is_own i) eqn:Ei.
  - rewrite K; auto. unfold EntryOK in F1. simpl in F1. destruct i; simpl in Ei; try discriminate; tauto.
  - rewrite IH; auto.
Qed.

Lemma on_my_none {A} (f : rlist -> outcome (rlist * A)) : forall L,
  existsb is_own (map fst L) = false -> on_my f me L = Abort.
Proof.
  induction L as [|[i r] L IH]; intros E; simpl in *; auto.
  change (match i with RIfull => true | RIsingle t => t =? me | _ => false end) with (is_own i).
  destruct (is_own i); [discriminate|]. simpl in E. rewrite IH; auto.
Qed.

Lemma find_my_spec L : find_my me L = None <-> existsb is_own (map fst L) = false.
Proof.
  induction L as [|[i r] L IH]; simpl; [tauto|]. destruct i; simpl; auto; [split; discriminate|].
  destruct (tid =? me); simpl; auto. split; discriminate.
Qed.
Lemma find_full_spec L : find_full L = None <-> existsb is_full (map fst L) = false.
Proof. induction L as [|[i r] L IH]; simpl; [tauto|]. destruct i; simpl; auto. split; discriminate. Qed.

Lemma find_my_ok L l : 0 <= me -> Forall EntryOK L -> find_my me L = Some l -> LOK l.
Proof.
  intros Hm. induction 1 as [|[i r] L F1 _ IH]; simpl; [discriminate|]. unfold EntryOK in F1. simpl in F1.
  destruct i; auto.
  - intros [= <-]. tauto.
  - destruct (tid =? me); auto. intros [= <-]. tauto.
Qed.
Lemma find_full_ok L l : Forall EntryOK L -> find_full L = Some l -> LAll l.
Proof.
  induction 1 as [|[i r] L F1 _ IH]; simpl; [discriminate|]. unfold EntryOK in F1. simpl in F1.
  destruct i; auto. intros [= <-]. tauto.
Qed.

Lemma own_tidmaprange m n : 0 <= me -> keeps (fun l => rl_tidmaprange l me m n)
  (fun x => option_map seen_no x = at_ (filter (fun y => snd y =? m) (numbered own)) n).
Proof.
  intros Hm l l' a L H. destruct (tidmaprange_ok l me m n (lo_frozen _ L)) as [l2 [T1 [T2 [T3 [T4 [T5 [T6 T7]]]]]]].
  - rewrite (lo_tids _ L). unfold me in *. lia.
  - apply L.
  - apply L.
  - rewrite T1 in H. injection H as <- <-. conjs; auto. rewrite at_map. f_equal.
    rewrite <- (proj1 (lo_no _ L)). rewrite filter_map_snd. reflexivity.
Qed.
Lemma def_tidmaprange m n : 0 <= me -> defined_at (fun l => rl_tidmaprange l me m n).
Proof.
  intros Hm l L. destruct (tidmaprange_ok l me m n (lo_frozen _ L)) as [l2 [T1 _]]; [|apply L|apply L|eauto].
  rewrite (lo_tids _ L). unfold me in *. lia.
Qed.

Lemma own_tidmaprangecount m : 0 <= me -> keeps (fun l => rl_tidmaprangecount l me m)
  (fun z => z = Z.of_nat (length (filter (fun y => snd y =? m) (numbered own)))).
Proof.
  intros Hm l l' a L H.
  destruct (tidmaprangecount_ok l me m (lo_frozen _ L)) with (l' := l') (r := a) as [T1 [T2 [T3 [T4 [T5 [T6 T7]]]]]]; auto.
  - rewrite (lo_tids _ L). unfold me in *. lia.
  - apply L.
  - apply L.
  - conjs; auto. rewrite T1. rewrite <- (proj1 (lo_no _ L)), filter_map_snd, map_length. reflexivity.
Qed.

Lemma last_total l : LOK l -> match mine me (rl_trs l) with [] => 0 | _ =>
    match nth_error (mine me (rl_trs l)) (length (mine me (rl_trs l)) - 1) with Some x => t_mapNo x + 1 | None => 0 end end = map_total own.
Proof.
  intros L. destruct (lo_no _ L) as [_ [N2 N3]]. unfold map_total. rewrite <- N2 at 1. rewrite map_length.
  destruct (mine me (rl_trs l)) as [|x M] eqn:E; [reflexivity|].
  cbn [length]. replace (S (length M) - 1)%nat with (length M) by lia.
  destruct (nth_error (x :: M) (length M)) as [y|] eqn:Ey.
  - rewrite (N3 _ _ Ey). reflexivity.
  - apply nth_error_None in Ey. simpl in Ey. lia.
Qed.

Lemma def_tidmaprangecount m : 0 <= me -> 0 <= m < map_total own -> defined_at (fun l => rl_tidmaprangecount l me m).
Proof.
  intros Hm Hr l L. destruct (maprangecount_defined l me m (lo_frozen _ L)) as [D _]; [|apply L|apply L|].
  - rewrite (lo_tids _ L). unfold me in *. lia.
  - rewrite (last_total l L) in D. destruct (D Hr) as [l' [r D']]. eauto.
Qed.
Lemma abort_tidmaprangecount m : 0 <= me -> ~ 0 <= m < map_total own -> forall l, LOK l -> rl_tidmaprangecount l me m = Abort.
Proof.
  intros Hm Hr l L. destruct (maprangecount_defined l me m (lo_frozen _ L)) as [_ D]; [|apply L|apply L|].
  - rewrite (lo_tids _ L). unfold me in *. lia.
  - rewrite (last_total l L) in D. auto.
Qed.

(* a partitioning after the calls [h] *)
Record PInv (h : list pcall) (p : pobj) : Prop := {
  pi_s : pa_space (po_part p) = s;
  pi_g : pa_group (po_part p) = g;
  pi_pr : po_pr p = pr;
  pi_o : po_other p = other;
  pi_ok : Forall EntryOK (pa_lists (po_part p));
  pi_all : existsb is_full (map fst (pa_lists (po_part p))) = true <-> StoresAll h;
  pi_own : 0 <= me -> existsb is_own (map fst (pa_lists (po_part p))) = true <-> StoresOwn h }.

Lemma own_none : me < 0 -> own = [].
Proof. intros H. unfold own, own_of. replace (me <? 0) with true by lia. reflexivity. Qed.

Lemma at_nil {A} n : @at_ A [] n = None.
Proof. unfold at_. destruct (n <? 0); auto. destruct (Z.to_nat n); auto. Qed.

Definition quiet (c : pcall) : Prop := match c with PStoreAll _ | PStoreMy _ => False | _ => True end.

Lemma stores_quiet h c : quiet c -> (StoresAll (h ++ [c]) <-> StoresAll h) /\ (StoresOwn (h ++ [c]) <-> StoresOwn h).
Proof.
  intros Q. assert (A : StoresAll (h ++ [c]) <-> StoresAll h).
  { unfold StoresAll. split; intros [q Hq]; exists q; [|apply in_or_app; auto].
    apply in_app_or in Hq. destruct Hq as [Hq|[E|[]]]; auto. subst c. destruct Q. }
  split; auto. unfold StoresOwn. rewrite A. split; (intros [H|[q Hq]]; [auto|right; exists q]).
  - apply in_app_or in Hq. destruct Hq as [Hq|[E|[]]]; auto. subst c. destruct Q.
  - apply in_or_app; auto.
Qed.

Lemma inv_lists h c p L : quiet c -> PInv h p -> Forall EntryOK L -> map fst L = map fst (pa_lists (po_part p)) ->
  PInv (h ++ [c]) (set_lists p L).
Proof.
  intros Q [A B C D E F G] H1 H2. destruct (stores_quiet h c Q) as [S1 S2].
  constructor; simpl; auto; rewrite ?H2; [rewrite S1; auto|intros Hm; rewrite S2; auto].
Qed.
Lemma inv_same h c p : quiet c -> PInv h p -> PInv (h ++ [c]) p.
Proof.
  intros Q [A B C D E F G]. destruct (stores_quiet h c Q) as [S1 S2].
  constructor; simpl; auto; [rewrite S1; auto|intros Hm; rewrite S2; auto].
Qed.
Lemma inv_add h c p i l : quiet c -> PInv h p -> EntryOK (i, l) -> is_own i = false -> is_full i = false ->
  PInv (h ++ [c]) (add_ranges p i l).
Proof.
  intros Q [A B C D E F G] H1 H2 H3. destruct (stores_quiet h c Q) as [S1 S2].
  constructor; simpl; auto; rewrite ?H2, ?H3; simpl; [rewrite S1; auto|intros Hm; rewrite S2; auto].
Qed.

Definition owner (t : Z) (i : index) : Prop := Given (sp_dims s) cs t i.

Lemma my_range_right h p n x : PInv h p -> my_range (po_part p) n = Ok x ->
  option_map seen_no x = at_ (numbered own) n /\ option_map seen x = at_ own n.
Proof.
  intros I H. unfold my_range in H. rewrite (pi_g _ _ I) in H. fold me in H.
  destruct (me <? 0) eqn:Em.
  { injection H as <-. rewrite own_none by lia. unfold numbered. simpl. rewrite !at_nil. auto. }
  unfold pa_my in H. rewrite (pi_g _ _ I) in H. fold me in H.
  destruct (find_my me (pa_lists (po_part p))) as [l|] eqn:E; [|discriminate].
  pose proof (find_my_ok _ _ ltac:(lia) (pi_ok _ _ I) E) as L.
  rewrite frozen_tidrange in H; [|apply L|rewrite (lo_tids _ L); unfold me in *; lia].
  injection H as <-. destruct (lo_no _ L) as [N1 [N2 _]]. rewrite !at_map. rewrite N1, N2. auto.
Qed.

Lemma all_trs p h l : PInv h p -> pa_all (po_part p) = Some l -> LAll l.
Proof. intros I. apply find_full_ok, I. Qed.

Lemma step_ok h p c p' a : GoodCall c -> PInv h p -> pstep p c = Ok (p', a) ->
  PInv (h ++ [c]) p' /\ RightAnswer s (g_size g) owner T own c a.
Proof.
  intros Gc I H. destruct c; cbn [pstep] in H; apply obind_ok in H; destruct H as [v [H1 H2]];
    injection H2 as <- <-; cbn [RightAnswer]; cbn [GoodCall] in Gc.
  - (* store all *)
    split; auto. unfold store_allranges, parting_run in H1. apply obind_ok in H1. destruct H1 as [l [R [= <-]]].
    rewrite (pi_s _ _ I), (pi_g _ _ I), (pi_pr _ _ I), (pi_o _ _ I) in R.
    pose proof (store_full q l Gc R) as K. destruct I as [A B C D E F G].
    constructor; simpl; auto.
    + split; auto. intros _. exists q. apply in_or_app. right. left. auto.
    + intros Hm. split; auto. intros _. left. exists q. apply in_or_app. right. left. auto.
  - (* store own *)
    split; auto. unfold store_myranges in H1. rewrite (pi_g _ _ I) in H1. fold me in H1.
    destruct (me <? 0) eqn:Em.
    + injection H1 as <-. destruct I as [A B C D E F G]. constructor; auto; [|intros; lia].
      rewrite F. unfold StoresAll. split; intros [q0 Hq]; exists q0; [apply in_or_app; auto|].
      apply in_app_or in Hq. destruct Hq as [Hq|[Eq|[]]]; auto. discriminate.
    + simpl in H1. fold me in H1. unfold parting_run in H1. apply obind_ok in H1. destruct H1 as [l [R [= <-]]].
      rewrite (pi_s _ _ I), (pi_g _ _ I), (pi_pr _ _ I), (pi_o _ _ I) in R.
      pose proof (store_my q l Gc ltac:(lia) R) as K. destruct I as [A B C D E F G].
      constructor; simpl; auto.
      * rewrite F. unfold StoresAll. split; intros [q0 Hq]; exists q0; [apply in_or_app; auto|].
        apply in_app_or in Hq. destruct Hq as [Hq|[Eq|[]]]; auto. discriminate.
      * intros Hm. rewrite Z.eqb_refl. simpl. split; auto. intros _. right. exists q. apply in_or_app. right. left. auto.
  - (* intersecting *)
    split; auto. unfold store_intersectranges in H1. destruct (negb _); [discriminate|].
    destruct (pa_my (po_part p)); [|discriminate]. destruct (pa_my _); [|discriminate].
    apply obind_ok in H1. destruct H1 as [sf [_ H1]]. apply obind_ok in H1. destruct H1 as [sf2 [_ H1]].
    unfold parting_run in H1. apply obind_ok in H1. destruct H1 as [l [R [= <-]]].
    apply inv_add; try exact Logic.I; auto.
  - (* own count *)
    split; [apply inv_same; simpl; auto|]. unfold my_rangecount in H1. rewrite (pi_g _ _ I) in H1. fold me in H1.
    destruct (me <? 0) eqn:Em; [injection H1 as <-; rewrite own_none by lia; reflexivity|].
    apply cassert_ok in H1. destruct H1 as [_ H1]. unfold pa_my in H1. rewrite (pi_g _ _ I) in H1. fold me in H1.
    destruct (find_my me _) as [l|] eqn:E; [|discriminate].
    pose proof (find_my_ok _ _ ltac:(lia) (pi_ok _ _ I) E) as L.
    rewrite frozen_tidrangecount in H1; [|apply L|rewrite (lo_tids _ L); unfold me in *; lia].
    injection H1 as <-. destruct (lo_no _ L) as [_ [N2 _]]. rewrite <- N2, map_length. reflexivity.
  - split; [apply inv_same; simpl; auto|]. eapply my_range_right; eauto.
  - (* map count *)
    split; [apply inv_same; simpl; auto|]. unfold my_mapcount in H1. rewrite (pi_g _ _ I) in H1. fold me in H1.
    destruct (me <? 0) eqn:Em; [injection H1 as <-; rewrite own_none by lia; reflexivity|].
    apply cassert_ok in H1. destruct H1 as [_ H1]. unfold pa_my in H1. rewrite (pi_g _ _ I) in H1. fold me in H1.
    destruct (find_my me _) as [l|] eqn:E; [|discriminate].
    pose proof (find_my_ok _ _ ltac:(lia) (pi_ok _ _ I) E) as L.
    rewrite mapcount_last in H1; [|apply L|rewrite (lo_tids _ L); unfold me in *; lia].
    rewrite (last_total l L) in H1. congruence.
  - (* ranges of a map *)
    unfold my_maprangecount in H1. rewrite (pi_g _ _ I) in H1. fold me in H1.
    destruct (me <? 0) eqn:Em.
    { injection H1 as <-. rewrite own_none by lia. split; [apply inv_same; simpl; auto|reflexivity]. }
    apply obind_ok in H1. destruct H1 as [[L' z] [H1 [= <-]]]. simpl.
    destruct (on_my_keeps _ _ ltac:(lia) (own_tidmaprangecount m ltac:(lia)) _ _ _ (pi_ok _ _ I) H1) as [K1 [K2 K3]].
    split; auto. apply inv_lists; simpl; auto.
  - (* range of a map *)
    unfold my_maprange in H1. rewrite (pi_g _ _ I) in H1. fold me in H1.
    destruct (me <? 0) eqn:Em.
    { injection H1 as <-. rewrite own_none by lia. split; [apply inv_same; simpl; auto|]. unfold numbered. simpl. rewrite at_nil. auto. }
    apply obind_ok in H1. destruct H1 as [[L' z] [H1 [= <-]]]. simpl.
    assert (K : option_map seen_no z = at_ (filter (fun y => snd y =? m) (numbered own)) n /\ Forall EntryOK L' /\ map fst L' = map fst (pa_lists (po_part p))).
    { destruct (pa_all (po_part p)).
      - exact (on_all_keeps _ _ ltac:(lia) (own_tidmaprange m n ltac:(lia)) _ _ _ (pi_ok _ _ I) H1).
      - exact (on_my_keeps _ _ ltac:(lia) (own_tidmaprange m n ltac:(lia)) _ _ _ (pi_ok _ _ I) H1). }
    destruct K as [K1 [K2 K3]]. split; auto. apply inv_lists; simpl; auto.
  - (* borders *)
    split; [apply inv_same; simpl; auto|]. unfold my_range_nd in H1. apply cassert_ok in H1. destruct H1 as [Ed H1].
    apply obind_ok in H1. destruct H1 as [x [H1 [= <-]]]. simpl.
    destruct (my_range_right _ _ _ _ I H1) as [K1 K2]. split; auto. rewrite <- K2.
    apply Nat.eqb_eq in Ed. rewrite (pi_s _ _ I) in Ed. rewrite <- Ed.
    unfold borders. destruct Hd as [E|[E|E]]; rewrite E; destruct x; reflexivity.
  - (* all: count *)
    split; [apply inv_same; simpl; auto|]. unfold parting_rangecount in H1. destruct (pa_all (po_part p)) as [l|] eqn:E; [|discriminate].
    pose proof (all_trs _ _ _ I E) as L. injection H1 as <-. rewrite (fz_count _ (la_frozen _ L)), <- (la_T _ L), map_length. reflexivity.
  - (* all: n-th *)
    split; [apply inv_same; simpl; auto|]. unfold parting_taskrange in H1. destruct (pa_all (po_part p)) as [l|] eqn:E; [|discriminate].
    pose proof (all_trs _ _ _ I E) as L. unfold rl_taskrange in H1. rewrite (fz_count _ (la_frozen _ L)) in H1. unfold at_.
    destruct (n >=? _) eqn:En.
    + injection H1 as <-. replace (n <? 0) with false by lia. simpl. symmetry. apply nth_error_None. rewrite <- (la_T _ L), map_length. lia.
    + apply obind_ok in H1. destruct H1 as [x [H1 [= <-]]]. apply aread_ok in H1. destruct H1 as [Hn Hx].
      replace (n <? 0) with false by lia. simpl. rewrite <- (la_T _ L). symmetry. apply map_nth_error. auto.
  - (* isAll *)
    split; [apply inv_same; simpl; auto|]. unfold parting_isAll in H1. destruct (pa_all (po_part p)) as [l|] eqn:E; [|discriminate].
    pose proof (all_trs _ _ _ I E) as L. injection H1 as Hb. intros ->. intros t i Ht Hi.
    destruct (la_origin _ L) as [l0 [O1 [O2 [O3 [O4 [O5 O6]]]]]]. apply O6. apply C09_isAll; try congruence.
    rewrite <- Hb. unfold rl_isAll. rewrite O2, O3, O4, O5, (la_space _ L).
    destruct (FrozenList_Frozen _ O1) as [F0 _]. rewrite (fz_count _ F0), (fz_count _ (la_frozen _ L)), O2. reflexivity.
  - (* isSingle *)
    split; [apply inv_same; simpl; auto|]. unfold parting_isSingle in H1. destruct (pa_all (po_part p)) as [l|] eqn:E; [|discriminate].
    pose proof (all_trs _ _ _ I E) as L. intros Hn.
    destruct (la_origin _ L) as [l0 [O1 [O2 [O3 [O4 [O5 O6]]]]]].
    destruct (C09_isSingle l0 v O1) as [S1 [S2 S3]]; auto.
    + rewrite <- H1. unfold rl_isSingle. rewrite O2, O4, (la_space _ L).
      destruct (FrozenList_Frozen _ O1) as [F0 _]. rewrite (fz_count _ F0), (fz_count _ (la_frozen _ L)), O2. reflexivity.
    + rewrite O3, O4 in *. conjs; try tauto; try lia.
      * intros i Hi. apply O6, S2; auto.
      * intros u i Hu. apply (S3 u i), O6, Hu.
  - (* covers *)
    split; [apply inv_same; simpl; auto|]. unfold parting_coversSpace in H1. destruct (pa_all (po_part p)) as [l|] eqn:E; [|discriminate].
    pose proof (all_trs _ _ _ I E) as L. intros ->. intros i Hi.
    destruct (la_origin _ L) as [l0 [O1 [O2 [O3 [O4 [O5 O6]]]]]].
    destruct (C08_coverage_sound (q_from q) l) with (i := i) as [x [X1 X2]]; try (rewrite (la_space _ L); auto); auto; try apply Gc.
    pose proof (fz_tasks _ (la_frozen _ L)) as Ft. rewrite Forall_forall in Ft. specialize (Ft x X1).
    exists (t_task x). split; [lia|]. apply O6. destruct (FrozenList_Frozen _ O1) as [F0 _].
    apply (frozen_owns l0 F0). exists x. rewrite O2, O4. rewrite (la_space _ L) in X2. auto.
Qed.

Lemma life_ok : forall h2 h1 p p' ans, Forall GoodCall h2 -> PInv h1 p -> plife p h2 = Ok (p', ans) ->
  PInv (h1 ++ h2) p' /\ Forall2 (RightAnswer s (g_size g) owner T own) h2 ans.
Proof.
  induction h2 as [|c h2 IH]; intros h1 p p' ans G I H; simpl in H.
  - injection H as <- <-. rewrite app_nil_r. auto.
  - inversion G; subst. apply obind_ok in H. destruct H as [[p1 a] [H1 H]]. apply obind_ok in H. destruct H as [[p2 as2] [K1 K2]].
    simpl in *. injection K2 as <- <-. destruct (step_ok _ _ _ _ _ ltac:(eauto) I H1) as [I1 R].
    destruct (IH (h1 ++ [c]) p1 p2 as2 ltac:(auto) I1 K1) as [I2 R2]. rewrite <- app_assoc in I2. auto.
Qed.

Lemma inv_new : PInv [] (new_empty_partitioning g s pr other).
Proof.
  constructor; simpl; auto.
  - split; [discriminate|]. intros [q []].
  - intros _. split; [discriminate|]. intros [[q []]|[q []]].
Qed.

Lemma find_my_some L : existsb is_own (map fst L) = true -> exists l, find_my me L = Some l.
Proof.
  intros E. destruct (find_my me L) as [l|] eqn:F; [eauto|]. apply find_my_spec in F. congruence.
Qed.

(* what is defined *)
Lemma own_defined h p : 0 <= me -> PInv h p -> StoresOwn h ->
  (exists z, my_rangecount (po_part p) = Ok z) /\ (forall n, exists x, my_range (po_part p) n = Ok x) /\
  (exists z, my_mapcount (po_part p) = Ok z) /\
  (forall m n, exists x, my_maprange p m n = Ok x) /\
  (forall m, 0 <= m < map_total own -> exists x, my_maprangecount p m = Ok x) /\
  (forall m, ~ 0 <= m < map_total own -> my_maprangecount p m = Abort).
Proof.
  intros Hm I St. apply (pi_own _ _ I Hm) in St.
  destruct (find_my_some _ St) as [l El]. pose proof (find_my_ok _ _ Hm (pi_ok _ _ I) El) as L.
  assert (Hr : 0 <= me < rl_tids l) by (rewrite (lo_tids _ L); unfold me in *; lia).
  assert (Hmb : (me <? 0) = false) by lia.
  unfold my_rangecount, my_range, my_mapcount, my_maprange, my_maprangecount, pa_my.
  rewrite (pi_g _ _ I). fold me. rewrite Hmb, El. replace (me <? g_size g) with true by (unfold me in *; lia). cbn [cassert].
  conjs.
  - rewrite frozen_tidrangecount; eauto. apply L.
  - intros n. rewrite frozen_tidrange; eauto. apply L.
  - rewrite mapcount_last; eauto. apply L.
  - intros m n. destruct (pa_all (po_part p)) eqn:Ea.
    + assert (Ef : existsb is_full (map fst (pa_lists (po_part p))) = true).
      { destruct (existsb is_full _) eqn:E; auto. apply find_full_spec in E. unfold pa_all in Ea. congruence. }
      destruct (on_all_defined _ Hm (def_tidmaprange m n Hm) _ (pi_ok _ _ I) Ef) as [L' [a Ka]]. rewrite Ka. simpl. eauto.
    + destruct (on_my_defined _ Hm (def_tidmaprange m n Hm) _ (pi_ok _ _ I) St) as [L' [a Ka]]. rewrite Ka. simpl. eauto.
  - intros m Hr2. destruct (on_my_defined _ Hm (def_tidmaprangecount m Hm Hr2) _ (pi_ok _ _ I) St) as [L' [a Ka]]. rewrite Ka. simpl. eauto.
  - intros m Hr2. rewrite (on_my_abort _ (abort_tidmaprangecount m Hm Hr2) Hm _ (pi_ok _ _ I)). reflexivity.
Qed.

Lemma own_undefined h p : 0 <= me -> PInv h p -> ~ StoresOwn h ->
  my_rangecount (po_part p) = Abort /\ (forall n, my_range (po_part p) n = Abort) /\
  my_mapcount (po_part p) = Abort /\ (forall m n, my_maprange p m n = Abort) /\ (forall m, my_maprangecount p m = Abort).
Proof.
  intros Hm I St.
  assert (E : existsb is_own (map fst (pa_lists (po_part p))) = false).
  { destruct (existsb is_own _) eqn:E; auto. exfalso. apply St, (pi_own _ _ I Hm). auto. }
  assert (Ef : pa_all (po_part p) = None).
  { apply find_full_spec. destruct (existsb is_full _) eqn:Ef; auto. exfalso. apply St. left. apply (pi_all _ _ I). auto. }
  pose proof (proj2 (find_my_spec _) E) as Em. assert (Hmb : (me <? 0) = false) by lia.
  unfold my_rangecount, my_range, my_mapcount, my_maprange, my_maprangecount, pa_my.
  rewrite (pi_g _ _ I). fold me. rewrite Hmb, Em, Ef. replace (me <? g_size g) with true by (unfold me in *; lia). cbn [cassert].
  conjs; auto; intros; rewrite on_my_none; auto.
Qed.

Lemma all_defined h p : PInv h p ->
  (StoresAll h -> exists l, pa_all (po_part p) = Some l) /\ (~ StoresAll h -> pa_all (po_part p) = None).
Proof.
  intros I. split; intros St.
  - apply (pi_all _ _ I) in St. destruct (pa_all (po_part p)) eqn:E; [eauto|]. apply find_full_spec in E. congruence.
  - apply find_full_spec. destruct (existsb is_full _) eqn:E; auto. exfalso. apply St, (pi_all _ _ I), E.
Qed.

Lemma store_my_defined q0 l0 h p q : good_sorts q0 -> good_sorts q -> run_partitioner q0 pr (mkParams s g other) None = Ok l0 ->
  PInv h p -> exists p', store_myranges q p = Ok p'.
Proof.
  intros Hq0 Hq R I. unfold store_myranges. rewrite (pi_g _ _ I). fold me. destruct (me <? 0) eqn:Em; [eauto|].
  simpl. fold me. unfold parting_run. rewrite (pi_s _ _ I), (pi_g _ _ I), (pi_pr _ _ I), (pi_o _ _ I).
  destruct (my_filter q0 q pr (mkParams s g other) l0 (mkRfilter (Some TidFilter) me None None)) as [l' [R' _]]; auto.
  - simpl. fold me. lia.
  - rewrite R'. simpl. eauto.
Qed.

End Life.
