(* Proofs about communicators of groups *)
From Coq Require Import ZArith List Bool Lia Permutation Sorted ZifyBool ZifyNat.
From Verif Require Import Base ListFacts Model_Space Spec_Space Model_RangeList Spec_RangeList Proof_RangeList5
  Model_Partitioner Spec_Partitioner Proof_Partitioner2 Model_Group Spec_Group Proof_Group Proof_Group3 Prop_Group
  Model_MpiComm Spec_MpiComm.
From Verif Require Proof_Layout Proof_Space.
Import ListNotations.
Open Scope Z_scope.

Definition klt (a b : Z * Z) : Prop := fst a < fst b.

Lemma ins_In a l x : In x (key_ins a l) <-> x = a \/ In x l.
Proof.
  induction l as [|b l IH]; simpl; [intuition|]. destruct (fst a <=? fst b); simpl; [intuition|]. rewrite IH. intuition.
Qed.

Lemma ins_sorted a l : StronglySorted klt l -> (forall b, In b l -> fst b <> fst a) -> StronglySorted klt (key_ins a l).
Proof.
  induction l as [|b l IH]; intros S D; simpl; [repeat constructor|].
  apply StronglySorted_inv in S. destruct S as [S1 S2]. rewrite Forall_forall in S2.
  pose proof (D b (or_introl eq_refl)).
  destruct (fst a <=? fst b) eqn:E.
  - constructor; [constructor; auto; apply Forall_forall; auto|]. apply Forall_forall.
    intros x [<-|X]; unfold klt; [lia|]. specialize (S2 x X). unfold klt in S2. lia.
  - constructor; [apply IH; auto; intros; apply D; right; auto|]. apply Forall_forall.
    intros x X. apply ins_In in X. destruct X as [->|X]; [unfold klt; lia|auto].
Qed.

(* keys are positions in the new communicator *)
Lemma split_ok c key new : NoDup new -> (forall x, In x new -> In x c) -> NoDup c ->
  (forall x k, In x c -> (key x = Some k <-> 0 <= k /\ nth_error new (Z.to_nat k) = Some x)) ->
  comm_split c key = new.
Proof.
  intros N1 I N2 K. unfold comm_split.
  set (P := flat_map (fun x => match key x with Some k => [(k, x)] | None => [] end) c).
  assert (HP : forall k x, In (k, x) P <-> In x c /\ key x = Some k).
  { intros k x. unfold P. rewrite in_flat_map. split.
    - intros [y [Y1 Y2]]. destruct (key y) eqn:E; [|destruct Y2]. destruct Y2 as [Y2|[]]. injection Y2 as -> ->. auto.
    - intros [A B]. exists x. split; auto. rewrite B. left; auto. }
  assert (HS : StronglySorted klt (fold_right key_ins [] P) /\ forall x, In x (fold_right key_ins [] P) <-> In x P).
  { assert (D : forall a b, In a P -> In b P -> fst a = fst b -> a = b).
    { intros [k x] [k' y] A B E. simpl in E. subst k'. apply HP in A. apply HP in B. destruct A as [A1 A2], B as [B1 B2].
      apply K in A2; auto. apply K in B2; auto. f_equal. destruct A2, B2. congruence. }
    assert (ND : NoDup P).
    { unfold P. clear - N2. induction c as [|x c IH]; simpl; [constructor|]. inversion N2 as [|? ? X Y]; subst.
      specialize (IH Y). destruct (key x); simpl; auto. constructor; auto. rewrite in_flat_map. intros [y [Y1 Y2]].
      destruct (key y); [|destruct Y2]. destruct Y2 as [Y2|[]]. injection Y2 as _ ->. auto. }
    clear HP. clearbody P. induction P as [|a P IH]; simpl; [split; [constructor|intuition]|].
    inversion ND as [|? ? X Y]; subst.
    destruct IH as [S1 S2]; auto. { intros u v A B. apply D; right; auto. }
    split.
    - apply ins_sorted; auto. intros b B E. apply S2 in B. apply X.
      rewrite <- (D b a); auto; [right; auto|left; auto].
    - intros x. rewrite ins_In, S2. intuition. }
  destruct HS as [HS1 HS2].
  assert (T : forall l n, StronglySorted klt (combine (map Z.of_nat (seq n (length l))) l) /\
    forall k x, In (k, x) (combine (map Z.of_nat (seq n (length l))) l) <->
      Z.of_nat n <= k /\ nth_error l (Z.to_nat k - n) = Some x).
  { clear. induction l as [|y l IH]; intros n; simpl.
    - split; [constructor|]. intros k x. split; [tauto|]. intros [_ H]. destruct (Z.to_nat k - n)%nat; discriminate.
    - destruct (IH (S n)) as [A B]. split.
      + constructor; auto. apply Forall_forall. intros [k x] H. apply B in H. unfold klt. simpl. lia.
      + intros k x. rewrite B. split.
        * intros [H|[H1 H2]].
          -- injection H as <- <-. split; [lia|]. rewrite Nat2Z.id, Nat.sub_diag. auto.
          -- split; [lia|]. replace (Z.to_nat k - n)%nat with (S (Z.to_nat k - S n)) by lia. auto.
        * intros [H1 H2]. destruct (Z.eq_dec k (Z.of_nat n)) as [->|Ne].
          -- left. rewrite Nat2Z.id, Nat.sub_diag in H2. simpl in H2. congruence.
          -- right. split; [lia|]. replace (Z.to_nat k - n)%nat with (S (Z.to_nat k - S n)) in H2 by lia. auto. }
  destruct (T new 0%nat) as [T1 T2].
  assert (E : fold_right key_ins [] P = combine (map Z.of_nat (seq 0 (length new))) new).
  { apply (Proof_Layout.sorted_unique klt); auto.
    - unfold klt. intros x. lia.
    - unfold klt. intros x y z. lia.
    - intros [k x]. rewrite HS2, HP, T2, Nat.sub_0_r. split.
      + intros [A B]. apply K in B; auto.
      + intros [A B]. assert (In x c) by (apply I; eapply nth_error_In; eauto). split; auto. apply K; auto. }
  rewrite E. clear. assert (G : forall (l : list Z) n, map snd (combine (map Z.of_nat (seq n (length l))) l) = l).
  { induction l as [|x l IH]; intros n; simpl; auto. f_equal. apply IH. }
  apply G.
Qed.

Lemma At_with_myid g m t lid : At (with_myid g m) t lid <-> At g t lid.
Proof. reflexivity. Qed.

(* all processes have the same group; members have its communicator *)
Record MInv (n : nat) (sys : list mproc) (g : group) : Prop := mkMInv {
  mi_len : length sys = n;
  mi_group : Group g;
  mi_in : forall lid, In lid (g_loc g) -> 0 <= lid < Z.of_nat n;
  mi_proc : forall me p, nth_error sys me = Some p ->
    mp_group p = with_myid g (g_myid (mp_group p)) /\ IsMyId (mp_group p) (Z.of_nat me) /\
    (0 <= g_myid (mp_group p) -> mp_comm p = Some (g_loc g)) }.

Lemma collect_ok {A B} (f : A -> outcome B) (l : list A) :
  (forall x, In x l -> exists y, f x = Ok y) -> exists ys, collect f l = Ok ys /\ length ys = length l /\
    forall i x, nth_error l i = Some x -> exists y, nth_error ys i = Some y /\ f x = Ok y.
Proof.
  induction l as [|x l IH]; intros H; simpl.
  - exists []. repeat split; auto. intros [|i] x X; discriminate.
  - destruct (H x (or_introl eq_refl)) as [y E]. destruct IH as [ys [E1 [E2 E3]]]. { intros; apply H; right; auto. }
    rewrite E. simpl. rewrite E1. simpl. exists (y :: ys). split; auto. split; [simpl; auto|].
    intros [|i] z Z0; simpl in Z0; [|simpl; auto]. injection Z0 as <-. exists y. auto.
Qed.

Lemma member_myid g me t : Group g -> IsMyId g me -> At g t me -> g_myid g = t.
Proof.
  intros G [A|[_ A]] B; [|exfalso; eapply A; eauto]. destruct A as [A1 A2], B as [B1 B2].
  pose proof (proj1 (NoDup_nth_error _) (gr_nodup g G) (Z.to_nat (g_myid g)) (Z.to_nat t)) as X.
  enough (Z.to_nat (g_myid g) = Z.to_nat t) by lia. apply X; [|congruence]. apply nth_error_Some. congruence.
Qed.

Lemma At_In g lid : Group g -> (In lid (g_loc g) <-> exists t, At g t lid).
Proof.
  intros G. pose proof (gr_len g G). split.
  - intros H1. apply In_nth_error in H1. destruct H1 as [k K]. assert (k < length (g_loc g))%nat by (apply nth_error_Some; congruence).
    exists (Z.of_nat k). split; [lia|]. rewrite Nat2Z.id. auto.
  - intros [t [_ T]]. eapply nth_error_In; eauto.
Qed.

Lemma shrink_step_ok n sys g gid rm : MInv n sys g -> (forall x, In x rm -> 0 <= x < g_size g) ->
  exists sys' g', mpi_shrink sys gid rm = Ok sys' /\ MInv n sys' g' /\
    g_toParent g' = filter (keep rm) (zcount (g_size g)) /\
    g_size g' = Z.of_nat (length (g_toParent g')) /\
    (forall k t, nth_error (g_toParent g') k = Some t -> nth_error (g_loc g') k = nth_error (g_loc g) (Z.to_nat t)).
Proof.
  intros [M1 M2 M3 M4] HR.
  assert (GW : forall m, Group (with_myid g m)) by (intros m; destruct M2; constructor; auto).
  destruct (shrink_ok gid (with_myid g (-1)) rm (GW _) HR) as [g2 [E [G2 [E1 [E2 [E3 [E4 [PM [L _]]]]]]]]]; [simpl; lia|].
  destruct (C19_shrink gid (with_myid g (-1)) rm (GW _) HR) as [g2' [E' [_ [_ [_ [TI [_ [_ [_ [LM _]]]]]]]]]]; [simpl; lia|].
  assert (g2' = g2) by congruence. subst g2'.
  assert (SUB : forall t lid, At g2 t lid -> exists u, At g u lid).
  { intros t lid H. destruct LM as [_ LM]. destruct (LM t lid H) as [u [U1 [U2|[U2 _]]]].
    - exists u. exact U2.
    - exfalso. apply nth_error_In in U1. apply TI in U1. lia. }
  assert (SUB' : forall lid, In lid (g_loc g2) -> In lid (g_loc g)).
  { intros lid H. apply (At_In g2) in H; auto. destruct H as [t H]. apply (At_In g); auto. eauto. }
  assert (SZ : g_size g2 <= g_size g).
  { rewrite <- (gr_len g M2), <- (gr_len g2 G2). pose proof (NoDup_incl_length (gr_nodup g2 G2) SUB'). lia. }
  (* the call of each process *)
  assert (STEP : forall me p, nth_error sys me = Some p ->
    exists g3 c, new_shrinked_group gid (mp_group p) rm = Ok g3 /\ update_call p g3 = Ok c /\
      g3 = with_myid g2 (g_myid g3) /\ IsMyId g3 (Z.of_nat me) /\
      c = if g_myid (mp_group p) <? 0 then None else Some (g_loc g, if g_myid g3 <? 0 then None else Some (g_myid g3))).
  { intros me p Hp. destruct (M4 me p Hp) as [A [B C]].
    assert (MB : 0 <= g_myid (mp_group p) -> g_myid (mp_group p) < g_size g).
    { intros X. destruct B as [[B _]|[B _]]; [|lia]. rewrite A in B. simpl in B. lia. }
    assert (GP : Group (mp_group p)) by (rewrite A; apply GW).
    assert (SP : g_size (mp_group p) = g_size g) by (rewrite A; reflexivity).
    destruct (shrink_ok gid (mp_group p) rm GP) as [g3 [F [G3 [_ [F2 [_ [_ [_ [_ [_ MY]]]]]]]]]].
    { rewrite SP. auto. } { rewrite SP. auto. }
    destruct (C19_shrink gid (mp_group p) rm GP) as [g3' [F' [_ [_ [_ [_ [_ [_ [_ [_ [_ IM]]]]]]]]]]].
    { rewrite SP. auto. } { rewrite SP. auto. }
    assert (g3' = g3) by congruence. subst g3'.
    assert (AG : g3 = with_myid g2 (g_myid g3)).
    { eapply (C19_shrink_agree gid (with_myid g (-1)) rm (g_myid (mp_group p))); eauto.
      - simpl. lia.
      - change (with_myid (with_myid g (-1)) (g_myid (mp_group p))) with (with_myid g (g_myid (mp_group p))).
        rewrite <- A. exact F. }
    assert (ID : IsMyId g3 (Z.of_nat me)).
    { destruct B as [B|[B1 B2]]; [apply IM; exact B|]. right. split; [destruct MY as [MY|MY]; lia|].
      intros t T. rewrite AG in T. destruct (SUB t _ T) as [u U]. apply (B2 u). rewrite A. exact U. }
    eexists g3, _. split; auto. split; [|split; [|split; [|reflexivity]]]; auto.
    unfold update_call. rewrite F2. rewrite SP.
    assert (SG : g_size g3 = g_size g2) by (rewrite AG; reflexivity). rewrite SG.
    replace (g_size g2 <=? g_size g) with true by lia. simpl.
    destruct (g_myid (mp_group p) <? 0) eqn:N; auto. rewrite C by lia. auto. }
  destruct (collect_ok (fun p => do g <- new_shrinked_group gid (mp_group p) rm; do c <- update_call p g; Ok (g, c)) sys)
    as [calls [K1 [K2 K3]]].
  { intros p Hp. apply In_nth_error in Hp. destruct Hp as [me Hp]. destruct (STEP me p Hp) as [g3 [c [A [B _]]]].
    exists (g3, c). rewrite A. simpl. rewrite B. auto. }
  assert (CALL : forall me p, nth_error sys me = Some p -> exists g3, nth_error calls me = Some (g3,
      if g_myid (mp_group p) <? 0 then None else Some (g_loc g, if g_myid g3 <? 0 then None else Some (g_myid g3))) /\
      g3 = with_myid g2 (g_myid g3) /\ IsMyId g3 (Z.of_nat me)).
  { intros me p Hp. destruct (STEP me p Hp) as [g3 [c [A [B [C [D F]]]]]]. destruct (K3 me p Hp) as [y [Y1 Y2]].
    rewrite A in Y2. simpl in Y2. rewrite B in Y2. simpl in Y2. injection Y2 as <-. subst c. exists g3. auto. }
  (* members of the group call with its communicator *)
  assert (MEM : forall lid, In lid (g_loc g) -> exists g3,
      nth_error calls (Z.to_nat lid) = Some (g3, Some (g_loc g, if g_myid g3 <? 0 then None else Some (g_myid g3))) /\
      g3 = with_myid g2 (g_myid g3) /\ IsMyId g3 lid).
  { intros lid H. pose proof (M3 lid H) as R. destruct (nth_error sys (Z.to_nat lid)) as [p|] eqn:Hp; [|apply nth_error_None in Hp; lia].
    destruct (CALL _ p Hp) as [g3 [A [B C]]]. rewrite Z2Nat.id in C by lia. exists g3. split; auto.
    destruct (M4 _ p Hp) as [X [Y _]]. rewrite Z2Nat.id in Y by lia.
    apply (At_In g) in H; auto. destruct H as [t T].
    assert (g_myid (mp_group p) = t). { apply (member_myid _ lid); auto; rewrite X; auto. }
    destruct T as [T _]. replace (g_myid (mp_group p) <? 0) with false in A by lia. auto. }
  assert (RES : forall me p, nth_error sys me = Some p -> exists g3 c2,
     nth_error calls me = Some (g3, if g_myid (mp_group p) <? 0 then None else Some (g_loc g, if g_myid g3 <? 0 then None else Some (g_myid g3))) /\
     split_result calls (g3, if g_myid (mp_group p) <? 0 then None else Some (g_loc g, if g_myid g3 <? 0 then None else Some (g_myid g3)))
       = Ok (mkMproc g3 c2) /\
     g3 = with_myid g2 (g_myid g3) /\ IsMyId g3 (Z.of_nat me) /\ (0 <= g_myid g3 -> c2 = Some (g_loc g2))).
  { intros me p Hp. destruct (CALL me p Hp) as [g3 [A [B C]]]. destruct (M4 me p Hp) as [X [Y _]].
    destruct (g_myid (mp_group p) <? 0) eqn:N.
    - exists g3, None. split; auto. split; auto. split; auto. split; auto. intros Z0. exfalso.
      destruct C as [C|[C _]]; [|lia]. rewrite B in C. destruct (SUB _ _ C) as [u U].
      rewrite X in Y. destruct Y as [[Y _]|[_ Y]]; [simpl in Y; lia|]. apply (Y u). exact U.
    - eexists g3, _. split; [exact A|]. split; [|split; [exact B|split; [exact C|]]].
      + unfold split_result. cbn [snd fst].
        match goal with |- context [forallb ?f ?l] => assert (FB : forallb f l = true) end.
        { apply forallb_forall. intros lid H. destruct (MEM lid H) as [g4 [D _]]. rewrite D. simpl.
          unfold comm_eqb. destruct (list_eq_dec Z.eq_dec (g_loc g) (g_loc g)); congruence. }
        rewrite FB. reflexivity.
      + intros Z0. replace (g_myid g3 <? 0) with false by lia. f_equal.
        apply split_ok; auto. { apply (gr_nodup g2 G2). } { apply (gr_nodup g M2). }
        intros x k Hx. destruct (MEM x Hx) as [g4 [D1 [D2 D3]]]. rewrite D1. pose proof (gr_len g2 G2) as LL.
        destruct D3 as [D3|[D3 D4]].
        * assert (0 <= g_myid g4) by (destruct D3; lia). replace (g_myid g4 <? 0) with false by lia. split.
          -- intros K. injection K as <-. split; auto. rewrite D2 in D3. destruct D3 as [_ D3]. exact D3.
          -- intros [U V]. f_equal. apply (member_myid g4 x).
             ++ rewrite D2. destruct G2; constructor; auto.
             ++ left. exact D3.
             ++ rewrite D2. split; [|exact V]. simpl. assert (Z.to_nat k < length (g_loc g2))%nat by (apply nth_error_Some; congruence). lia.
        * rewrite D3. simpl. split; [discriminate|]. intros [U V]. exfalso. apply (D4 k). rewrite D2. split; [|exact V].
          simpl. assert (Z.to_nat k < length (g_loc g2))%nat by (apply nth_error_Some; congruence). lia. }
  destruct (collect_ok (split_result calls) calls) as [sys' [R1 [R2 R3]]].
  { intros y Hy. apply In_nth_error in Hy. destruct Hy as [me Hy].
    destruct (nth_error sys me) as [p|] eqn:Hp.
    - destruct (RES me p Hp) as [g3 [c2 [A [B _]]]]. assert (y = _) by (rewrite Hy in A; injection A as A; exact A). subst y. eauto.
    - apply nth_error_None in Hp. assert (me < length calls)%nat by (apply nth_error_Some; congruence). lia. }
  exists sys', g2. split; [unfold mpi_shrink; rewrite K1; exact R1|]. split.
  - constructor; auto; try lia.
    intros me p' Hp'. destruct (nth_error sys me) as [p|] eqn:Hp.
    + destruct (RES me p Hp) as [g3 [c2 [A [B [C [D F]]]]]]. destruct (R3 me _ A) as [y [Y1 Y2]].
      rewrite B in Y2. injection Y2 as <-. rewrite Hp' in Y1. injection Y1 as ->. simpl. auto.
    + apply nth_error_None in Hp. assert (me < length sys')%nat by (apply nth_error_Some; congruence). lia.
  - split; [exact E4|]. split; [destruct LM as [LM _]; lia|exact L].
Qed.

Lemma start_inv gid n : 0 <= n -> MInv (Z.to_nat n) (mpi_start gid n) (mkGroup gid n (-1) None [] [] None [] [] (zcount n)).
Proof.
  intros N. constructor.
  - unfold mpi_start. rewrite map_length. pose proof (zcount_length n). lia.
  - constructor; simpl.
    + pose proof (zcount_length n). lia.
    + unfold zcount. apply FinFun.Injective_map_NoDup; [intros a b; lia|apply seq_NoDup].
    + intros lid H. apply zcount_In in H. lia.
  - simpl. intros lid H. apply zcount_In in H. lia.
  - intros me p H. unfold mpi_start in H. rewrite nth_error_map, zcount_nth in H.
    destruct (Z.of_nat me <? n) eqn:E; [|discriminate]. injection H as <-. simpl. split; [reflexivity|]. split; [|auto].
    left. split; simpl; [lia|]. rewrite Nat2Z.id, zcount_nth, E. auto.
Qed.

Lemma shrunk_size n rm : 0 <= n -> (forall x, In x rm -> 0 <= x < n) ->
  Z.of_nat (length (filter (keep rm) (zcount n))) = n - Z.of_nat (length (nodup Z.eq_dec rm)).
Proof.
  intros N H. assert (NZ : NoDup (zcount n)) by (unfold zcount; apply FinFun.Injective_map_NoDup; [intros a b; lia|apply seq_NoDup]).
  assert (P : Permutation (zcount n) (filter (keep rm) (zcount n) ++ nodup Z.eq_dec rm)).
  { apply NoDup_Permutation; auto.
    - apply Proof_Space.NoDup_app_intro; [apply NoDup_filter; auto|apply NoDup_nodup|].
      intros x A B. apply filter_In in A. apply nodup_In, keep_In in B. destruct A. congruence.
    - intros x. rewrite in_app_iff, filter_In, nodup_In, zcount_In. specialize (H x). pose proof (keep_In rm x).
      destruct (keep rm x); intuition congruence. }
  apply Permutation_length in P. rewrite app_length in P. pose proof (zcount_length n). lia.
Qed.

Lemma shrunk_locs g g' rm : Group g -> Group g' -> g_toParent g' = filter (keep rm) (zcount (g_size g)) ->
  g_size g' = Z.of_nat (length (g_toParent g')) ->
  (forall k t, nth_error (g_toParent g') k = Some t -> nth_error (g_loc g') k = nth_error (g_loc g) (Z.to_nat t)) ->
  g_loc g' = flat_map (fun t => if in_dec Z.eq_dec (Z.of_nat t) rm then [] else [nth t (g_loc g) 0]) (seq 0 (length (g_loc g))).
Proof.
  intros G G' T S L.
  assert (E : g_loc g' = map (fun t => nth (Z.to_nat t) (g_loc g) 0) (g_toParent g')).
  { apply nth_error_ext. intros k. rewrite nth_error_map. pose proof (gr_len g' G').
    destruct (nth_error (g_toParent g') k) as [t|] eqn:K; simpl.
    - rewrite (L k t K). apply nth_error_nth'. apply nth_error_In in K. rewrite T in K. apply filter_In in K.
      destruct K as [K _]. apply zcount_In in K. pose proof (gr_len g G). lia.
    - apply nth_error_None in K. apply nth_error_None. lia. }
  rewrite E, T. rewrite <- (gr_len g G). unfold zcount. rewrite Nat2Z.id.
  generalize (seq 0 (length (g_loc g))). induction l as [|t l IH]; simpl; auto.
  pose proof (keep_In rm (Z.of_nat t)). destruct (keep rm (Z.of_nat t)), (in_dec Z.eq_dec (Z.of_nat t) rm); simpl; rewrite ?IH, ?Nat2Z.id; auto.
  - exfalso. intuition congruence.
  - exfalso. intuition.
Qed.

Lemma shrinks_ok path : forall n sys g, MInv n sys g -> ValidPath (g_size g) path ->
  exists sys' g', mpi_shrinks sys path = Ok sys' /\ MInv n sys' g' /\ g_loc g' = left_over (g_loc g) path.
Proof.
  induction path as [|[gid rm] path IH]; intros n sys g I V; simpl in *.
  - exists sys, g. auto.
  - destruct V as [V1 V2]. destruct (shrink_step_ok n sys g gid rm I V1) as [s1 [g1 [E1 [I1 [T1 [S1 L1]]]]]].
    rewrite E1. simpl. pose proof (mi_group _ _ _ I) as G. pose proof (mi_group _ _ _ I1) as G1.
    rewrite <- shrunk_size, <- T1, <- S1 in V2; auto.
    + destruct (IH n s1 g1 I1 V2) as [s2 [g2 [E2 [I2 L2]]]]. exists s2, g2. split; auto. split; auto.
      rewrite L2. f_equal. apply shrunk_locs; auto.
    + pose proof (gr_len g G). lia.
Qed.
