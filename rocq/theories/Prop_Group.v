(* Properties C18-C20: groups and migration *)
From Coq Require Import ZArith List Bool Lia Permutation Sorted.
From Verif Require Import Base ListFacts Model_Space Spec_Space Proof_Space Model_RangeList Spec_RangeList
  Proof_RangeList Proof_RangeList2 Proof_RangeList3 Proof_RangeList4 Proof_RangeList5
  Model_Partitioner Spec_Partitioner Proof_Partitioner Proof_Partitioner2 Proof_Filter
  Model_Group Spec_Group Proof_Group Proof_Group2 Proof_Group3 Proof_Migrate Prop_Partitioner.
Import ListNotations.
Open Scope Z_scope.


(* ---------- C19: shrinking a group ---------- *)

(* For every group and every list of processes to remove, in any order and with duplicates:
   the call succeeds; the new group has a parent map listing exactly the processes not
   removed, in ascending order; the maps are inverse to each other; every process stays at
   its location; the own id follows. *)
Theorem C19_shrink : forall gid g rm, Group g ->
  (forall x, In x rm -> 0 <= x < g_size g) -> (0 <= g_myid g -> g_myid g < g_size g) ->
  exists g2, new_shrinked_group gid g rm = Ok g2 /\
    Group g2 /\ g_id g2 = gid /\ g_parent g2 = Some (g_id g) /\
    (forall t, In t (g_toParent g2) <-> 0 <= t < g_size g /\ ~ In t rm) /\
    StronglySorted Z.lt (g_toParent g2) /\
    ParentMaps (g_size g) (g_size g2) (g_toParent g2) (g_fromParent g2) /\
    (forall t, 0 <= t < g_size g -> (Remains g2 t <-> ~ In t rm)) /\
    LocMap g2 g (g_toParent g2) /\ LocMap g g2 (g_fromParent g2) /\
    (forall loc, At g (g_myid g) loc -> IsMyId g2 loc).
Proof.
  intros gid g rm G Hr Hm. destruct (shrink_ok gid g rm G Hr Hm) as [g2 [E [G2 [E1 [E2 [E3 [E4 [P [L [R M]]]]]]]]]].
  destruct (shrink_locmaps g g2 G G2 P L) as [L1 L2].
  exists g2. conjs; auto.
  - intros t. rewrite E4, filter_In, zcount_In. pose proof (keep_In rm t). destruct (keep rm t); intuition congruence.
  - rewrite E4. apply filter_sorted. apply zcount_sorted.
  - intros loc Hl. destruct M as [[M _]|[_ M]]; [destruct Hl; lia|].
    destruct L2 as [_ L2]. destruct (L2 _ _ Hl) as [u [U1 U2]]. assert (u = g_myid g2) by congruence. subst u.
    destruct U2 as [U2|U2]; [left; auto|right; auto].
Qed.

(* a process number outside of the group ends the program *)
Theorem C19_shrink_abort : forall gid g rm x, Group g -> In x rm -> ~ (0 <= x < g_size g) ->
  new_shrinked_group gid g rm = Abort.
Proof. intros. apply shrink_abort; eauto. Qed.

(* all processes of the group compute the same new group *)
Theorem C19_shrink_agree : forall gid g rm a g2 g2', Group g ->
  (forall x, In x rm -> 0 <= x < g_size g) -> (0 <= g_myid g -> g_myid g < g_size g) -> (0 <= a -> a < g_size g) ->
  new_shrinked_group gid g rm = Ok g2 -> new_shrinked_group gid (with_myid g a) rm = Ok g2' ->
  g2' = with_myid g2 (g_myid g2').
Proof.
  intros gid g rm a g2 g2' G Hr Hm Ha E E'. unfold new_shrinked_group, clone_group in *.
  change (locs_of (with_myid g a)) with (locs_of g) in E'. rewrite (Group_locs g G) in E, E'.
  cbn [obind g_fromParent g_toParent g_loc g_size with_myid g_myid g_id] in E, E'.
  apply obind_ok in E. destruct E as [f [F E]]. rewrite F in E'. cbn [obind] in E'.
  apply obind_ok in E. destruct E as [s [S E]].
  change (shrink_step (with_myid g a)) with (shrink_step g) in E'. rewrite S in E'. cbn [obind] in E'.
  apply obind_ok in E. destruct E as [m [M E]]. apply obind_ok in E'. destruct E' as [m' [M' E']].
  injection E as <-. injection E' as <-. reflexivity.
Qed.

Example C19_case : exists g2, Group (exgroup 5 3) /\ At (exgroup 5 3) 3 3 /\
  new_shrinked_group 9 (exgroup 5 3) [4; 0; 4] = Ok g2 /\
  g_size g2 = 3 /\ g_toParent g2 = [1; 2; 3] /\ g_fromParent g2 = [-1; 0; 1; 2; -1] /\ g_loc g2 = [1; 2; 3] /\ g_myid g2 = 2.
Proof.
  eexists. split; [split; [reflexivity| |]|].
  - simpl. repeat constructor; simpl; intuition lia.
  - simpl. intros lid H. intuition lia.
  - split; [split; [simpl; lia|reflexivity]|vmsplit].
Qed.

(* ---------- C20: union of groups ---------- *)

(* For every pair of groups, every order qsort may produce and every content of fresh
   memory: the result contains each location of either group exactly once. If one group
   contains the other, that group is returned. Otherwise a new group is made with
   locations in ascending order and four maps to and from both groups which keep every
   process at its location. *)
Theorem C20_union : forall q junk gid myloc g1 g2, is_qsort lididx_cmp q -> Group g1 -> Group g2 ->
  exists u, new_union_group q junk gid myloc g1 g2 = Ok u /\
    let g := union_result g1 g2 u in
    Group g /\
    (forall lid, In lid (g_loc g) <-> In lid (g_loc g1) \/ In lid (g_loc g2)) /\
    (u = UFirst <-> forall lid, In lid (g_loc g2) -> In lid (g_loc g1)) /\
    (u = USecond -> forall lid, In lid (g_loc g1) -> In lid (g_loc g2)) /\
    (forall h, u = UNew h ->
      ~ (forall lid, In lid (g_loc g1) -> In lid (g_loc g2)) /\
      StronglySorted Z.lt (g_loc h) /\ g_id h = gid /\
      g_parent h = Some (g_id g1) /\ g_parent2 h = Some (g_id g2) /\
      LocMap h g1 (g_toParent h) /\ LocMap g1 h (g_fromParent h) /\
      LocMap h g2 (g_toParent2 h) /\ LocMap g2 h (g_fromParent2 h) /\
      IsMyId h myloc).
Proof. intros q junk gid myloc g1 g2 Hq G1 G2. exact (union_ok g1 g2 G1 G2 q Hq junk gid myloc). Qed.

(* every process computes the same group, up to its own id *)
Theorem C20_union_agree : forall q q' junk junk' gid myloc myloc' g1 g2 a b u,
  is_qsort lididx_cmp q -> is_qsort lididx_cmp q' -> Group g1 -> Group g2 ->
  new_union_group q junk gid myloc g1 g2 = Ok u ->
  exists u', new_union_group q' junk' gid myloc' (with_myid g1 a) (with_myid g2 b) = Ok u' /\
    match u, u' with
    | UFirst, UFirst => True
    | USecond, USecond => True
    | UNew g, UNew g' => g' = with_myid g (g_myid g')
    | _, _ => False
    end.
Proof. exact union_agree. Qed.

Definition ex_g (id me : Z) (locs : list Z) : group :=
  mkGroup id (Z.of_nat (length locs)) me None [] [] None [] [] locs.
Example C20_case : is_qsort lididx_cmp (isort lididx_cmp) /\
  Group (ex_g 4 1 [5; 2; 0]) /\ Group (ex_g 5 (-1) [3; 5]) /\
  exists h, new_union_group (isort lididx_cmp) 77 9 2 (ex_g 4 1 [5; 2; 0]) (ex_g 5 (-1) [3; 5]) = Ok (UNew h) /\
    g_loc h = [0; 2; 3; 5] /\ g_toParent h = [2; 1; -1; 0] /\ g_fromParent2 h = [2; 3] /\ g_myid h = 1.
Proof.
  split; [|split; [|split]].
  - apply isort_is_qsort.
    + intros a b. unfold lididx_cmp. lia.
    + intros a b c. unfold lididx_cmp. lia.
  - split; [reflexivity| |]; simpl.
    + repeat constructor; simpl; intuition lia.
    + intros lid H. intuition lia.
  - split; [reflexivity| |]; simpl.
    + repeat constructor; simpl; intuition lia.
    + intros lid H. intuition lia.
  - eexists. vmsplit.
Qed.

(* ---------- C18: migration ---------- *)

(* Migration between two groups related by a map which keeps processes at their location:
   if the processes not in the new group have no ranges, it succeeds, and every stored list
   gives every location exactly the ranges (with tags) and indexes it had before. *)
Theorem C18_migrate : forall qg p newg m, is_qsort trgen_cmp qg -> Stored p -> Group (pa_group p) -> Group newg ->
  g_id (pa_group p) <> g_id newg -> mig_map (pa_group p) newg = Ok m -> LocMap (pa_group p) newg m ->
  (forall i l t lid, In (i, l) (pa_lists p) -> At (pa_group p) t lid -> (forall u, ~ At newg u lid) -> NoRanges l t) ->
  exists p', pa_migrate qg p newg = Ok p' /\ pa_group p' = newg /\ pa_space p' = pa_space p /\
    Forall2 (Renamed (pa_group p) newg) (pa_lists p) (pa_lists p').
Proof. exact pa_migrate_ok. Qed.

(* otherwise the program ends *)
Theorem C18_migrate_abort : forall qg p newg m i l t lid, is_qsort trgen_cmp qg -> Stored p ->
  Group (pa_group p) -> Group newg ->
  g_id (pa_group p) <> g_id newg -> mig_map (pa_group p) newg = Ok m -> LocMap (pa_group p) newg m ->
  In (i, l) (pa_lists p) -> At (pa_group p) t lid -> (forall u, ~ At newg u lid) -> ~ NoRanges l t ->
  pa_migrate qg p newg = Abort.
Proof. exact pa_migrate_abort. Qed.

(* a group id not used for [g] or its parents *)
Definition FreshFor (gid : Z) (g : group) : Prop :=
  g_id g <> gid /\ g_parent g <> Some gid /\ g_parent2 g <> Some gid.

(* Migration to a shrunk group: succeeds if the removed processes have no ranges *)
Theorem C18_shrink : forall qg p gid rm g2, is_qsort trgen_cmp qg -> Stored p -> Group (pa_group p) ->
  (forall x, In x rm -> 0 <= x < g_size (pa_group p)) ->
  (0 <= g_myid (pa_group p) -> g_myid (pa_group p) < g_size (pa_group p)) ->
  new_shrinked_group gid (pa_group p) rm = Ok g2 -> FreshFor gid (pa_group p) ->
  (forall i l t, In (i, l) (pa_lists p) -> In t rm -> NoRanges l t) ->
  exists p', pa_migrate qg p g2 = Ok p' /\ pa_group p' = g2 /\
    Forall2 (Renamed (pa_group p) g2) (pa_lists p) (pa_lists p').
Proof.
  intros qg p gid rm g2 Hq St G Hr Hm E Fr Hn.
  destruct (C19_shrink gid (pa_group p) rm G Hr Hm) as [g2' [E' [G2 [I1 [I2 [T1 [_ [P [R [L1 [L2 _]]]]]]]]]]].
  assert (g2' = g2) by congruence. subst g2'. destruct Fr as [F1 [F2 F3]].
  destruct (pa_migrate_ok qg p g2 (g_fromParent g2)) as [p' [A [B [C D]]]]; auto.
  - congruence.
  - unfold mig_map. rewrite I2, Z.eqb_refl. auto.
  - intros i l t lid Hi Ht Hu. apply (Hn i l t Hi).
    destruct (in_dec Z.eq_dec t rm) as [X|X]; auto. exfalso.
    destruct Ht as [Ht1 Ht2]. apply (R t) in X; [|lia]. destruct X as [_ [k [K1 K2]]].
    destruct L2 as [_ L2]. destruct (L2 t lid (conj Ht1 Ht2)) as [u [U1 U2]]. assert (u = k) by congruence. subst u.
    destruct U2 as [U2|[U2 _]]; [apply (Hu _ U2)|lia].
  - exists p'. auto.
Qed.

(* ... and back to the parent: always succeeds, the removed processes own nothing then *)
Theorem C18_back : forall qg p g gid rm, is_qsort trgen_cmp qg -> Stored p -> Group g ->
  (forall x, In x rm -> 0 <= x < g_size g) -> (0 <= g_myid g -> g_myid g < g_size g) ->
  new_shrinked_group gid g rm = Ok (pa_group p) -> FreshFor gid g ->
  exists p', pa_migrate qg p g = Ok p' /\ pa_group p' = g /\
    Forall2 (Renamed (pa_group p) g) (pa_lists p) (pa_lists p').
Proof.
  intros qg p g gid rm Hq St G Hr Hm E [F1 [F2 F3]].
  destruct (C19_shrink gid g rm G Hr Hm) as [g2' [E' [G2 [I1 [I2 [T1 [_ [P [R [L1 [L2 _]]]]]]]]]]].
  assert (g2' = pa_group p) by congruence. subst g2'.
  destruct (pa_migrate_ok qg p g (g_toParent (pa_group p))) as [p' [A [B [C D]]]]; auto.
  - congruence.
  - unfold mig_map. rewrite I1, I2, Z.eqb_refl.
    destruct (g_parent g) as [a|]; [destruct (a =? gid) eqn:Ea; [exfalso; apply F2; f_equal; lia|]|];
    (destruct (g_parent2 g) as [b|]; [destruct (b =? gid) eqn:Eb; [exfalso; apply F3; f_equal; lia|]|]; auto).
  - intros i l t lid Hi Ht Hu. exfalso. destruct L1 as [_ L1]. destruct (L1 _ _ Ht) as [u [U1 U2]].
    destruct U2 as [U2|[-> U2]]; [apply (Hu _ U2)|].
    destruct (pm_to _ _ _ _ P t (-1)) as [K _]; auto; [destruct Ht; lia|lia].
  - exists p'. auto.
Qed.

(* Migration from either group to the union, and from the union back *)
Theorem C18_union : forall qg q junk gid myloc g1 g2 h p, is_qsort trgen_cmp qg -> is_qsort lididx_cmp q ->
  Group g1 -> Group g2 -> g_id g1 <> g_id g2 -> FreshFor gid g1 -> FreshFor gid g2 ->
  new_union_group q junk gid myloc g1 g2 = Ok (UNew h) -> Stored p ->
  (pa_group p = g1 \/ pa_group p = g2 ->
    exists p', pa_migrate qg p h = Ok p' /\ pa_group p' = h /\
      Forall2 (Renamed (pa_group p) h) (pa_lists p) (pa_lists p')) /\
  (forall g, (g = g1 \/ g = g2) -> pa_group p = h ->
    (forall i l t lid, In (i, l) (pa_lists p) -> At h t lid -> (forall u, ~ At g u lid) -> NoRanges l t) ->
    exists p', pa_migrate qg p g = Ok p' /\ pa_group p' = g /\
      Forall2 (Renamed h g) (pa_lists p) (pa_lists p')).
Proof.
  intros qg q junk gid myloc g1 g2 h p Hqg Hq G1 G2 Ne [A1 [A2 A3]] [B1 [B2 B3]] E St.
  destruct (union_ok g1 g2 G1 G2 q Hq junk gid myloc) as [u [E' [U1 [U2 [_ [_ U3]]]]]].
  assert (u = UNew h) by congruence. subst u. simpl in U1, U2.
  destruct (U3 h eq_refl) as [_ [_ [I [P1 [P2 [L1 [L2 [L3 [L4 _]]]]]]]]].
  assert (In1 : forall g t lid, g = g1 \/ g = g2 -> At g t lid -> exists v, At h v lid).
  { intros g t lid [-> | ->] Ht.
    - assert (X : In lid (g_loc h)) by (apply U2; left; destruct Ht as [_ Ht]; eapply nth_error_In; eauto).
      apply In_nth_error in X. destruct X as [k K]. exists (Z.of_nat k).
      assert (k < length (g_loc h))%nat by (apply nth_error_Some; congruence). pose proof (gr_len _ U1).
      split; [lia|]. rewrite Nat2Z.id. auto.
    - assert (X : In lid (g_loc h)) by (apply U2; right; destruct Ht as [_ Ht]; eapply nth_error_In; eauto).
      apply In_nth_error in X. destruct X as [k K]. exists (Z.of_nat k).
      assert (k < length (g_loc h))%nat by (apply nth_error_Some; congruence). pose proof (gr_len _ U1).
      split; [lia|]. rewrite Nat2Z.id. auto. }
  split.
  - intros Hp.
    assert (exists m, mig_map (pa_group p) h = Ok m /\ LocMap (pa_group p) h m) as [m [M1 M2]].
    { unfold mig_map. rewrite P1, P2. destruct Hp as [-> | ->].
      - rewrite Z.eqb_refl. eauto.
      - destruct (g_id g1 =? g_id g2) eqn:X; [lia|]. rewrite Z.eqb_refl. eauto. }
    destruct (pa_migrate_ok qg p h m) as [p' [R1 [R2 [R3 R4]]]]; auto.
    + destruct Hp as [-> | ->]; auto.
    + destruct Hp as [-> | ->]; congruence.
    + intros i l t lid _ Ht Hu. exfalso. destruct (In1 _ _ _ Hp Ht) as [v V]. apply (Hu v V).
    + exists p'. auto.
  - intros g Hg Hp Hn.
    assert (Ng : forall a, a = g_parent g \/ a = g_parent2 g -> match a with Some x => x =? g_id h | None => false end = false).
    { intros a Ha. destruct a as [x|]; auto. destruct (x =? g_id h) eqn:X; auto. exfalso.
      assert (x = gid) by lia. subst x. destruct Hg as [-> | ->]; destruct Ha as [Ha|Ha]; symmetry in Ha; contradiction. }
    assert (exists m, mig_map h g = Ok m /\ LocMap h g m) as [m [M1 M2]].
    { unfold mig_map. rewrite (Ng _ (or_introl eq_refl)), (Ng _ (or_intror eq_refl)), P1, P2. destruct Hg as [-> | ->].
      - rewrite Z.eqb_refl. eauto.
      - destruct (g_id g1 =? g_id g2) eqn:X; [lia|]. rewrite Z.eqb_refl. eauto. }
    destruct (pa_migrate_ok qg p g m) as [p' [R1 [R2 [R3 R4]]]]; rewrite ?Hp; auto.
    + destruct Hg as [-> | ->]; auto.
    + destruct Hg as [-> | ->]; congruence.
    + exists p'. rewrite Hp in R4. auto.
Qed.

(* groups which are not parent or child of each other are refused *)
Theorem C18_unrelated : forall qg p newg, g_id (pa_group p) <> g_id newg ->
  g_parent newg <> Some (g_id (pa_group p)) -> g_parent2 newg <> Some (g_id (pa_group p)) ->
  g_parent (pa_group p) <> Some (g_id newg) -> g_parent2 (pa_group p) <> Some (g_id newg) ->
  pa_migrate qg p newg = Abort.
Proof.
  intros qg p newg H0 H1 H2 H3 H4. unfold pa_migrate. destruct (g_id (pa_group p) =? g_id newg) eqn:E; [lia|].
  assert (N : forall o z, o <> Some z -> match o with Some x => x =? z | None => false end = false).
  { intros [x|] z Ho; auto. destruct (x =? z) eqn:X; auto. exfalso. apply Ho. f_equal. lia. }
  unfold mig_map. rewrite (N _ _ H1), (N _ _ H2), (N _ _ H3), (N _ _ H4). auto.
Qed.

(* the ranges a process sees as its own are the same before and after *)
Theorem C18_own_ranges : forall p p' loc, Group (pa_group p) -> Group (pa_group p') -> Stored p ->
  At (pa_group p) (g_myid (pa_group p)) loc -> At (pa_group p') (g_myid (pa_group p')) loc ->
  Forall2 (Renamed (pa_group p) (pa_group p')) (pa_lists p) (pa_lists p') ->
  forall b g, MyRange p b g <-> MyRange p' b g.
Proof. exact my_ranges_kept. Qed.

(* there and back: every list gives every process the ranges and indexes it had *)
Theorem C18_there_and_back : forall qg qg' p gid rm g2, is_qsort trgen_cmp qg -> is_qsort trgen_cmp qg' ->
  Stored p -> Group (pa_group p) -> (forall x, In x rm -> 0 <= x < g_size (pa_group p)) ->
  (0 <= g_myid (pa_group p) -> g_myid (pa_group p) < g_size (pa_group p)) ->
  new_shrinked_group gid (pa_group p) rm = Ok g2 -> FreshFor gid (pa_group p) ->
  (forall i l t, In (i, l) (pa_lists p) -> In t rm -> NoRanges l t /\ i <> RIsingle t) ->
  exists p1 p2, pa_migrate qg p g2 = Ok p1 /\ pa_migrate qg' p1 (pa_group p) = Ok p2 /\
  pa_group p2 = pa_group p /\
  Forall2 (fun e e'' => fst e'' = fst e /\ rl_tids (snd e'') = rl_tids (snd e) /\ rl_space (snd e'') = rl_space (snd e) /\
      forall t, SameShare (snd e) (snd e'') t t) (pa_lists p) (pa_lists p2).
Proof.
  intros qg qg' p gid rm g2 Hq Hq' St G Hr Hm E Fr Hn0.
  assert (Hn : forall i l t, In (i, l) (pa_lists p) -> In t rm -> NoRanges l t) by (intros; eapply Hn0; eauto).
  destruct (C19_shrink gid (pa_group p) rm G Hr Hm) as [g2' [E' [G2 [I1 [I2 [T1 [_ [P [R [L1 [L2 _]]]]]]]]]]].
  assert (g2' = g2) by congruence. subst g2'.
  destruct (C18_shrink qg p gid rm g2 Hq St G Hr Hm E Fr Hn) as [p1 [A1 [A2 A3]]].
  assert (Gone : forall t lid, At (pa_group p) t lid -> (forall u, ~ At g2 u lid) -> In t rm).
  { intros t lid Ht Hu. destruct (in_dec Z.eq_dec t rm) as [X|X]; auto. exfalso.
    destruct Ht as [Ht1 Ht2]. apply (R t) in X; [|lia]. destruct X as [_ [k [K1 K2]]].
    destruct L2 as [_ L2]. destruct (L2 t lid (conj Ht1 Ht2)) as [u [U1 U2]]. assert (u = k) by congruence. subst u.
    destruct U2 as [U2|[U2 _]]; [apply (Hu _ U2)|lia]. }
  assert (St1 : Stored p1).
  { unfold Stored. rewrite A2.
    assert (Sp : pa_space p1 = pa_space p).
    { unfold pa_migrate in A1. destruct (_ =? _); [congruence|]. apply obind_ok in A1. destruct A1 as [m [_ A1]].
      apply obind_ok in A1. destruct A1 as [l' [_ A1]]. injection A1 as <-. reflexivity. }
    rewrite Sp. intros i' l' Hi'.
    assert (X : exists e, In e (pa_lists p) /\ Renamed (pa_group p) g2 e (i', l')).
    { clear - A3 Hi'. induction A3 as [|e e' x y H _ IH]; [destruct Hi'|]. destruct Hi' as [->|Hi'].
      - exists e. split; [left|]; auto.
      - destruct (IH Hi') as [e0 [X1 X2]]. exists e0. split; [right|]; auto. }
    destruct X as [[i l] [X1 [X2 [X3 [X4 [X5 [X6 X7]]]]]]]. simpl in *. destruct (St i l X1) as [Y1 [Y2 [Y3 Y4]]].
    split; auto. split; auto. split; [congruence|]. intros t ->.
    destruct i as [| |t0|o]; try discriminate. destruct X7 as [u [Z1 Z2]]. injection Z1 as <-.
    destruct (At_of_nth (pa_group p) t0 G (Y4 _ eq_refl)) as [lid Hl]. destruct (Z2 _ Hl) as [Z3|[-> Z3]]; [destruct Z3; auto|].
    exfalso. destruct (Hn0 _ _ t0 X1 (Gone _ _ Hl Z3)) as [_ N]. auto. }
  destruct (C18_back qg' p1 (pa_group p) gid rm Hq' St1 G Hr Hm) as [p2 [B1 [B2 B3]]]; auto; [congruence|].
  exists p1, p2. split; auto. split; auto. split; auto.
  rewrite A2 in B3. clear - A3 B3 St G G2 Hn0 Gone. unfold Stored in St.
  revert B3. generalize (pa_lists p2) as l2. induction A3 as [|e e1 l l1 Re A3 IH]; intros l2 B3; inversion B3; subst; constructor.
  - rename y into e2. destruct e as [i l0]. destruct (St i l0 (or_introl eq_refl)) as [S1 [S2 [S3 S4]]].
    assert (Gone' : forall t lid, At (pa_group p) t lid -> (forall u, ~ At g2 u lid) -> NoRanges l0 t /\ i <> RIsingle t).
    { intros t lid Ht Hu. apply (Hn0 i l0 t (or_introl eq_refl)). eapply Gone; eauto. }
    destruct (there_and_back (pa_group p) g2 (i, l0) e1 e2 G G2 S1 S2) as [X1 X2]; auto.
    { intros t lid Ht Hu. eapply Gone'; eauto. }
    destruct Re as [_ [_ [R1 [_ [_ R2]]]]]. destruct H1 as [_ [_ [Q1 [_ [_ Q2]]]]]. simpl in *.
    split; [|split; [|split]]; auto; [|congruence].
    destruct i as [| |t|o]; try (rewrite R2 in Q2; auto; fail).
    destruct R2 as [u [R2 R3]]. rewrite R2 in Q2. destruct Q2 as [v [Q2 Q3]]. rewrite Q2. f_equal.
    destruct (At_of_nth (pa_group p) t G (S4 _ eq_refl)) as [lid Hl].
    destruct (R3 _ Hl) as [R4|[-> R4]].
    + destruct (Q3 _ R4) as [Q4|[_ Q4]]; [exact (At_inj _ _ _ _ G Q4 Hl)|exfalso; apply (Q4 _ Hl)].
    + exfalso. destruct (Gone' _ _ Hl R4) as [_ N]. auto.
  - apply IH; auto.
    + intros i l0 Hi. apply St. right; auto.
    + intros i l0 t Hi. apply (Hn0 i l0 t). right; auto.
Qed.

(* Findings.  The list of ranges of the process itself is kept with its process id. If that
   process is removed the id becomes -1, and migrating back reads before the start of
   toParent. *)
Definition ex_l3 : rlist := Eval vm_compute in
  match run_partitioner exq (fixed [ACrange 1 (exrng 20 0 10) 1 ; ACrange 2 (exrng 20 10 20) 2] false)
    (mkParams (exsp 20) (exgroup 3 0) None) None with Ok l => l | _ => rl_new (exsp 0) 0 end.
Lemma ex_l3_run : run_partitioner exq (fixed [ACrange 1 (exrng 20 0 10) 1 ; ACrange 2 (exrng 20 10 20) 2] false)
    (mkParams (exsp 20) (exgroup 3 0) None) None = Ok ex_l3.
Proof. vm_compute. reflexivity. Qed.
Lemma ex_l3_frozen : FrozenList ex_l3.
Proof. refine (run_frozen _ _ _ _ _ exq_good _ _ ex_l3_run); [left; reflexivity|simpl; lia]. Qed.
Definition ex_p3 (me : Z) (i : rlinfo) : partg := mkPartg (exsp 20) (exgroup 3 me) [(i, ex_l3)].
Lemma ex_p3_stored me i : (forall t, i = RIsingle t -> 0 <= t < 3) -> Stored (ex_p3 me i).
Proof.
  intros Hi i' l [H|[]]. injection H as <- <-. split; [apply ex_l3_frozen|]. split; [reflexivity|]. split; [reflexivity|exact Hi].
Qed.
Lemma exgroup_group me : Group (exgroup 3 me).
Proof. split; [reflexivity| |]; simpl; [repeat constructor; simpl; intuition lia|]. intros lid H. intuition lia. Qed.
Lemma ex_l3_none : NoRanges ex_l3 0.
Proof.
  destruct (FrozenList_Frozen _ ex_l3_frozen) as [F _]. apply norange_in; auto. simpl. intros x [<-|[<-|[]]]; simpl; lia.
Qed.

Theorem C18_removed_own_list_refuted : exists p g2 p', Stored p /\ Group (pa_group p) /\
  new_shrinked_group 9 (pa_group p) [0] = Ok g2 /\
  (forall i l, In (i, l) (pa_lists p) -> NoRanges l 0) /\
  pa_migrate (isort trgen_cmp) p g2 = Ok p' /\ pa_migrate (isort trgen_cmp) p' (pa_group p) = UB.
Proof.
  exists (ex_p3 0 (RIsingle 0)). eexists. eexists. split; [apply ex_p3_stored; intros t Ht; injection Ht as <-; lia|].
  split; [apply exgroup_group|]. split; [vm_compute; reflexivity|]. split.
  - intros i l [H|[]]. injection H as <- <-. apply ex_l3_none.
  - vmsplit.
Qed.

(* The offsets of ranges in maps are cached for one process id, and this cache is not updated
   by a migration: the own maps cannot be asked for any more if the own id changed. *)
Theorem C18_map_query_refuted : exists p g2 l n p' l', Stored p /\ Group (pa_group p) /\
  pa_my p = Some ex_l3 /\ g_myid (pa_group p) = 1 /\
  rl_tidmaprangecount ex_l3 1 0 = Ok (l, n) /\
  new_shrinked_group 9 (pa_group p) [0] = Ok g2 /\
  pa_migrate (isort trgen_cmp) (mkPartg (pa_space p) (pa_group p) [(RIfull, l)]) g2 = Ok p' /\
  g_myid g2 = 0 /\ pa_my p' = Some l' /\ rl_tidrangecount l' 0 = Ok 1 /\
  rl_tidmaprangecount l' 0 0 = Abort.
Proof.
  exists (ex_p3 1 RIfull). do 5 eexists. split; [apply ex_p3_stored; discriminate|].
  split; [apply exgroup_group|]. vmsplit.
Qed.

Example C18_case : exists p g2 p' x x', Stored p /\ Group (pa_group p) /\ FreshFor 9 (pa_group p) /\
  (forall i l t, In (i, l) (pa_lists p) -> In t [0] -> NoRanges l t /\ i <> RIsingle t) /\
  new_shrinked_group 9 (pa_group p) [0] = Ok g2 /\ pa_migrate (isort trgen_cmp) p g2 = Ok p' /\
  my_range p 0 = Ok (Some x) /\ my_range p' 0 = Ok (Some x') /\ t_box x = t_box x' /\
  t_box x = mkBox (mkIdx 0 0 0) (mkIdx 10 0 0) /\ g_myid (pa_group p') = 0 /\ g_myid (pa_group p) = 1.
Proof.
  exists (ex_p3 1 RIfull). do 4 eexists. split; [apply ex_p3_stored; discriminate|].
  split; [apply exgroup_group|]. split; [split; [|split]; discriminate|]. split.
  - intros i l t [H|[]] [<-|[]]. injection H as <- <-. split; [apply ex_l3_none|discriminate].
  - vmsplit.
Qed.

Print Assumptions C18_migrate.
Print Assumptions C18_migrate_abort.
Print Assumptions C18_shrink.
Print Assumptions C18_back.
Print Assumptions C18_union.
Print Assumptions C18_unrelated.
Print Assumptions C18_own_ranges.
Print Assumptions C18_there_and_back.
Print Assumptions C18_removed_own_list_refuted.
Print Assumptions C18_map_query_refuted.
Print Assumptions C19_shrink.
Print Assumptions C19_shrink_abort.
Print Assumptions C19_shrink_agree.
Print Assumptions C20_union.
Print Assumptions C20_union_agree.
