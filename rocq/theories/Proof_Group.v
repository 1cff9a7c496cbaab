(* Proofs about Model_Group: shrinking *)
From Coq Require Import ZArith List Bool Lia ZifyBool ZifyNat Permutation Sorted.
From Verif Require Import Base ListFacts Model_Space Spec_Space Model_RangeList Spec_RangeList Proof_RangeList
  Model_Partitioner Spec_Partitioner Proof_Partitioner2 Model_Group Spec_Group.
Import ListNotations.
Open Scope Z_scope.

(* loop rule with progress *)
Lemma ofold_total {S X} (f : S -> X -> outcome S) (P : list X -> S -> Prop) l s0 :
  P [] s0 ->
  (forall pre x post s, l = pre ++ x :: post -> P pre s -> exists s', f s x = Ok s' /\ P (pre ++ [x]) s') ->
  exists s1, ofold f l s0 = Ok s1 /\ P l s1.
Proof.
  intros H0 Hs.
  assert (G : forall post pre s, l = pre ++ post -> P pre s -> exists s1, ofold f post s = Ok s1 /\ P l s1).
  { induction post as [|a post IH]; simpl; intros pre s El Hp.
    - rewrite app_nil_r in El. subst. eauto.
    - destruct (Hs pre a post s El Hp) as [s' [E1 E2]]. rewrite E1. simpl.
      apply (IH (pre ++ [a])); auto. rewrite <- app_assoc. auto. }
  exact (G l [] s0 eq_refl H0).
Qed.

Lemma awrite_ok {A} (l : list A) n x : 0 <= n < Z.of_nat (length l) ->
  awrite l n x = Ok (upd (Z.to_nat n) x l).
Proof. intros H. unfold awrite. destruct ((n <? 0) || (Z.of_nat (length l) <=? n)) eqn:E; auto. lia. Qed.

Lemma aread_nth {A} (l : list A) n x : 0 <= n -> nth_error l (Z.to_nat n) = Some x -> aread l n = Ok x.
Proof. intros H E. unfold aread. destruct (n <? 0) eqn:E1; [lia|]. rewrite E. auto. Qed.

Lemma upd_nth {A} n m (x : A) l : nth_error (upd n x l) m =
  if Nat.eqb n m then (if Nat.ltb n (length l) then Some x else None) else nth_error l m.
Proof.
  destruct (Nat.eqb n m) eqn:E.
  - apply Nat.eqb_eq in E. subst. destruct (Nat.ltb m (length l)) eqn:L.
    + apply upd_nth_same. apply Nat.ltb_lt; auto.
    + apply nth_error_None. rewrite upd_length. apply Nat.ltb_ge; auto.
  - apply upd_nth_other. apply Nat.eqb_neq; auto.
Qed.

Lemma zcount_length n : Z.of_nat (length (zcount n)) = Z.max 0 n.
Proof. unfold zcount. rewrite map_length, seq_length. lia. Qed.
Lemma zcount_nth n k : nth_error (zcount n) k = if Z.of_nat k <? n then Some (Z.of_nat k) else None.
Proof.
  unfold zcount. rewrite nth_error_map, nth_error_seq. destruct (k <? Z.to_nat n)%nat eqn:E; destruct (Z.of_nat k <? n) eqn:E2; simpl; auto; lia.
Qed.
Lemma zcount_NoDup n : NoDup (zcount n).
Proof. unfold zcount. apply FinFun.Injective_map_NoDup; [intros a b; lia|]. apply seq_NoDup. Qed.

Lemma Group_locs g : Group g -> locs_of g = Ok (g_loc g).
Proof.
  intros [L _ _]. unfold locs_of. destruct (Z.of_nat (length (g_loc g)) <? g_size g) eqn:E; [lia|].
  rewrite <- L. rewrite Nat2Z.id, firstn_all. auto.
Qed.

Lemma Group_size g : Group g -> 0 <= g_size g.
Proof. intros [L _ _]. lia. Qed.

Definition keep (rm : list Z) (t : Z) : bool := negb (existsb (Z.eqb t) rm).
Lemma keep_In rm t : keep rm t = false <-> In t rm.
Proof.
  unfold keep. rewrite negb_false_iff, existsb_exists. split.
  - intros [x [Hx E]]. apply Z.eqb_eq in E. subst; auto.
  - intros H. exists t. rewrite Z.eqb_refl. auto.
Qed.

(* marking *)
Lemma mark_ok n rm f0 : (forall x, In x rm -> 0 <= x < n) ->
  Z.of_nat (length f0) = n -> (forall k, 0 <= k < n -> nth_error f0 (Z.to_nat k) = Some 0) ->
  exists f, ofold (shrink_mark n) rm f0 = Ok f /\ Z.of_nat (length f) = n /\
    forall k, 0 <= k < n -> nth_error f (Z.to_nat k) = Some (if keep rm k then 0 else -1).
Proof.
  intros Hr Hl H0.
  destruct (ofold_total (shrink_mark n) (fun pre f => Z.of_nat (length f) = n /\
    forall k, 0 <= k < n -> nth_error f (Z.to_nat k) = Some (if keep pre k then 0 else -1)) rm f0) as [f [E [L F]]].
  - split; auto.
  - intros pre x post f El [L F]. assert (Hx : 0 <= x < n) by (apply Hr; rewrite El; apply in_elt).
    exists (upd (Z.to_nat x) (-1) f). unfold shrink_mark. destruct ((0 <=? x) && (x <? n)) eqn:E; [|lia]. simpl.
    split; [apply awrite_ok; lia|]. rewrite upd_length. split; auto. intros k Hk. rewrite upd_nth, F by auto.
    assert (Kk : keep (pre ++ [x]) k = keep pre k && negb (k =? x)).
    { unfold keep. rewrite existsb_app. simpl. rewrite orb_false_r. rewrite negb_orb. auto. }
    rewrite Kk. destruct (Nat.eqb (Z.to_nat x) (Z.to_nat k)) eqn:E2.
    + assert (k = x) by lia. subst. destruct (Nat.ltb (Z.to_nat x) (length f)) eqn:E3; [|lia].
      rewrite Z.eqb_refl, andb_false_r. auto.
    + destruct (k =? x) eqn:E3; [lia|]. rewrite andb_true_r. auto.
  - eauto.
Qed.

Record sinv (g : group) (rm : list Z) (pre : list Z) (s : sstate) : Prop := {
  si_o : ss_o s = Z.of_nat (length (filter (keep rm) pre));
  si_lf : Z.of_nat (length (ss_from s)) = g_size g;
  si_lt : Z.of_nat (length (ss_to s)) = g_size g;
  si_ll : Z.of_nat (length (ss_loc s)) = g_size g;
  si_k : forall k t, nth_error (filter (keep rm) pre) k = Some t ->
     nth_error (ss_from s) (Z.to_nat t) = Some (Z.of_nat k) /\
     nth_error (ss_to s) k = Some t /\ nth_error (ss_loc s) k = nth_error (g_loc g) (Z.to_nat t);
  si_rm : forall t, 0 <= t < g_size g -> keep rm t = false -> nth_error (ss_from s) (Z.to_nat t) = Some (-1);
  si_rest : forall t, 0 <= t < g_size g -> keep rm t = true -> ~ In t pre ->
     nth_error (ss_from s) (Z.to_nat t) = Some 0 }.

Lemma shrink_loop g rm f : Group g -> Z.of_nat (length f) = g_size g ->
  (forall k, 0 <= k < g_size g -> nth_error f (Z.to_nat k) = Some (if keep rm k then 0 else -1)) ->
  exists s, ofold (shrink_step g) (zcount (g_size g)) (mkSst 0 f (zcount (g_size g)) (g_loc g)) = Ok s /\
    sinv g rm (zcount (g_size g)) s.
Proof.
  intros Hg Lf Hf. pose proof (gr_len g Hg) as Ll. pose proof (Group_size g Hg) as Sz.
  apply ofold_total.
  - constructor; simpl; auto.
    + rewrite zcount_length. lia.
    + intros [|k] t; discriminate.
    + intros t Ht K. rewrite Hf by auto. rewrite K. auto.
    + intros t Ht K _. rewrite Hf by auto. rewrite K. auto.
  - intros pre x post s El I.
    assert (Hx : 0 <= x < g_size g) by (apply zcount_In; rewrite El; apply in_elt).
    pose proof (zcount_NoDup (g_size g)) as ND. rewrite El in ND. apply NoDup_remove_2 in ND.
    assert (Nx : ~ In x pre) by (intros H; apply ND; apply in_or_app; auto).
    assert (LK : (length (filter (keep rm) pre) < length (zcount (g_size g)))%nat).
    { rewrite El, app_length. simpl. pose proof (filter_length_le' (keep rm) pre). lia. }
    pose proof (zcount_length (g_size g)) as LZ.
    unfold shrink_step. destruct (keep rm x) eqn:K.
    + rewrite (aread_nth _ _ 0) by (try lia; apply (si_rest _ _ _ _ I); auto). simpl.
      rewrite awrite_ok by (rewrite (si_lf _ _ _ _ I); lia). simpl.
      rewrite awrite_ok by (rewrite (si_lt _ _ _ _ I), (si_o _ _ _ _ I); lia). simpl.
      destruct (nth_error (g_loc g) (Z.to_nat x)) as [lid|] eqn:EL.
      2:{ apply nth_error_None in EL. lia. }
      rewrite (aread_nth _ _ lid) by (auto; lia). simpl.
      rewrite awrite_ok by (rewrite (si_ll _ _ _ _ I), (si_o _ _ _ _ I); lia). simpl.
      eexists. split; [reflexivity|].
      assert (Fe : filter (keep rm) (pre ++ [x]) = filter (keep rm) pre ++ [x]) by (rewrite filter_app; simpl; rewrite K; auto).
      constructor; simpl; rewrite ?upd_length, ?Fe.
      * rewrite app_length, (si_o _ _ _ _ I). simpl. lia.
      * apply I.
      * apply I.
      * apply I.
      * intros k t Hk. rewrite !upd_nth. rewrite (si_o _ _ _ _ I).
        destruct (Nat.eq_dec k (length (filter (keep rm) pre))) as [->|Nk].
        -- rewrite nth_error_app2, Nat.sub_diag in Hk by lia. simpl in Hk. injection Hk as <-.
           rewrite Nat.eqb_refl, Nat2Z.id, Nat.eqb_refl.
           destruct (Nat.ltb (Z.to_nat x) (length (ss_from s))) eqn:E1; [|pose proof (si_lf _ _ _ _ I); lia].
           destruct (Nat.ltb (length (filter (keep rm) pre)) (length (ss_to s))) eqn:E2; [|pose proof (si_lt _ _ _ _ I); lia].
           destruct (Nat.ltb (length (filter (keep rm) pre)) (length (ss_loc s))) eqn:E3; [|pose proof (si_ll _ _ _ _ I); lia].
           auto.
        -- assert (Lk : (k < length (filter (keep rm) pre))%nat).
           { assert (k < length (filter (keep rm) pre ++ [x]))%nat by (apply nth_error_Some; congruence).
             rewrite app_length in H. simpl in H. lia. }
           rewrite nth_error_app1 in Hk by auto. destruct (si_k _ _ _ _ I _ _ Hk) as [K1 [K2 K3]].
           rewrite Nat2Z.id. destruct (Nat.eqb (length (filter (keep rm) pre)) k) eqn:E1; [lia|].
           assert (t <> x).
           { intros ->. apply Nx. apply nth_error_In in Hk. apply filter_In in Hk. tauto. }
           assert (0 <= t).
           { apply nth_error_In in Hk. apply filter_In in Hk. assert (In t (zcount (g_size g))) by (rewrite El; apply in_or_app; tauto).
             apply zcount_In in H0. lia. }
           destruct (Nat.eqb (Z.to_nat x) (Z.to_nat t)) eqn:E2; [lia|]. auto.
      * intros t Ht Kt. rewrite upd_nth. destruct (Nat.eqb (Z.to_nat x) (Z.to_nat t)) eqn:E2.
        -- assert (t = x) by lia. congruence.
        -- apply I; auto.
      * intros t Ht Kt Nt. rewrite upd_nth. destruct (Nat.eqb (Z.to_nat x) (Z.to_nat t)) eqn:E2.
        -- exfalso. apply Nt. apply in_or_app. right. left. lia.
        -- apply I; auto. intros H; apply Nt; apply in_or_app; auto.
    + rewrite (aread_nth _ _ (-1)) by (try lia; apply (si_rm _ _ _ _ I); auto). simpl.
      exists s. split; auto.
      assert (Fe : filter (keep rm) (pre ++ [x]) = filter (keep rm) pre) by (rewrite filter_app; simpl; rewrite K, app_nil_r; auto).
      constructor; rewrite ?Fe; try apply I.
      intros t Ht Kt Nt. apply I; auto. intros H; apply Nt; apply in_or_app; auto.
Qed.

Lemma NoDup_nth_error_inj {A} (l : list A) i j x : NoDup l -> nth_error l i = Some x -> nth_error l j = Some x -> i = j.
Proof.
  intros H Hi Hj. apply (proj1 (NoDup_nth_error l) H).
  - apply nth_error_Some. congruence.
  - congruence.
Qed.

Lemma At_inj g t u lid : Group g -> At g t lid -> At g u lid -> t = u.
Proof.
  intros Hg [H1 H2] [H3 H4]. pose proof (NoDup_nth_error_inj _ _ _ _ (gr_nodup g Hg) H2 H4). lia.
Qed.

Lemma shrink_ok gid g rm : Group g -> (forall x, In x rm -> 0 <= x < g_size g) ->
  (0 <= g_myid g -> g_myid g < g_size g) ->
  exists g2, new_shrinked_group gid g rm = Ok g2 /\
    Group g2 /\ g_id g2 = gid /\ g_parent g2 = Some (g_id g) /\ g_parent2 g2 = None /\
    g_toParent g2 = filter (keep rm) (zcount (g_size g)) /\
    ParentMaps (g_size g) (g_size g2) (g_toParent g2) (g_fromParent g2) /\
    (forall k t, nth_error (g_toParent g2) k = Some t -> nth_error (g_loc g2) k = nth_error (g_loc g) (Z.to_nat t)) /\
    (forall t, 0 <= t < g_size g -> (Remains g2 t <-> ~ In t rm)) /\
    (g_myid g < 0 /\ g_myid g2 = -1 \/ 0 <= g_myid g /\ nth_error (g_fromParent g2) (Z.to_nat (g_myid g)) = Some (g_myid g2)).
Proof.
  intros Hg Hr Hm. pose proof (Group_size g Hg) as Sz. pose proof (gr_len g Hg) as Ll.
  unfold new_shrinked_group, clone_group. rewrite (Group_locs g Hg). simpl.
  destruct (mark_ok (g_size g) rm (map (fun _ : Z => 0) (zcount (g_size g)))) as [f [E1 [Lf Hf]]]; auto.
  { rewrite map_length, zcount_length. lia. }
  { intros k Hk. rewrite nth_error_map, zcount_nth, Z2Nat.id by lia. destruct (k <? g_size g) eqn:E; [auto|lia]. }
  rewrite E1. simpl. destruct (shrink_loop g rm f Hg Lf Hf) as [s [E2 I]]. rewrite E2. simpl.
  set (K := filter (keep rm) (zcount (g_size g))) in *.
  assert (LK : (length K <= Z.to_nat (g_size g))%nat).
  { unfold K. pose proof (filter_length_le' (keep rm) (zcount (g_size g))). pose proof (zcount_length (g_size g)). lia. }
  assert (Eto : firstn (Z.to_nat (ss_o s)) (ss_to s) = K).
  { rewrite (si_o _ _ _ _ I), Nat2Z.id. fold K. apply nth_error_ext. intros k. rewrite nth_error_firstn.
    destruct (k <? length K)%nat eqn:E.
    - destruct (nth_error K k) as [t|] eqn:Ek; [|apply nth_error_None in Ek; lia].
      apply (si_k _ _ _ _ I) in Ek. tauto.
    - symmetry. apply nth_error_None. lia. }
  assert (Eloc : forall k t, nth_error K k = Some t -> nth_error (firstn (Z.to_nat (ss_o s)) (ss_loc s)) k = nth_error (g_loc g) (Z.to_nat t)).
  { intros k t Hk. rewrite nth_error_firstn, (si_o _ _ _ _ I), Nat2Z.id. fold K.
    assert (k < length K)%nat by (apply nth_error_Some; congruence). destruct (k <? length K)%nat eqn:E; [|lia].
    apply (si_k _ _ _ _ I) in Hk. tauto. }
  assert (LLoc : length (firstn (Z.to_nat (ss_o s)) (ss_loc s)) = length K).
  { rewrite firstn_length, (si_o _ _ _ _ I), Nat2Z.id. fold K. pose proof (si_ll _ _ _ _ I). lia. }
  assert (KIn : forall t, In t K <-> 0 <= t < g_size g /\ ~ In t rm).
  { intros t. unfold K. rewrite filter_In, zcount_In, <- keep_In. destruct (keep rm t); intuition congruence. }
  assert (NK : NoDup K) by (apply NoDup_filter, zcount_NoDup).
  assert (Hmy : exists my, (if g_myid g <? 0 then Ok (-1) else aread (ss_from s) (g_myid g)) = Ok my /\
     (g_myid g < 0 /\ my = -1 \/ 0 <= g_myid g /\ nth_error (ss_from s) (Z.to_nat (g_myid g)) = Some my)).
  { destruct (g_myid g <? 0) eqn:E; [exists (-1); split; auto; left; lia|].
    destruct (nth_error (ss_from s) (Z.to_nat (g_myid g))) as [v|] eqn:Ev.
    - exists v. split; [apply aread_nth; auto; lia|]. right. split; auto; lia.
    - apply nth_error_None in Ev. pose proof (si_lf _ _ _ _ I). lia. }
  destruct Hmy as [my [E3 E4]]. rewrite E3. simpl. eexists. split; [reflexivity|]. simpl. rewrite Eto.
  split.
  { constructor; simpl.
    - rewrite LLoc, (si_o _ _ _ _ I). auto.
    - apply NoDup_nth_error. intros i j Hi Eij. rewrite LLoc in Hi.
      destruct (nth_error K i) as [t|] eqn:Ei; [|apply nth_error_None in Ei; lia].
      rewrite (Eloc _ _ Ei) in Eij.
      assert (Ht : 0 <= t < g_size g) by (apply KIn; eapply nth_error_In; eauto).
      destruct (nth_error (g_loc g) (Z.to_nat t)) as [lid|] eqn:El; [|apply nth_error_None in El; lia].
      symmetry in Eij. assert (Hj : (j < length K)%nat) by (rewrite <- LLoc; apply nth_error_Some; congruence).
      destruct (nth_error K j) as [u|] eqn:Ej; [|apply nth_error_None in Ej; lia].
      rewrite (Eloc _ _ Ej) in Eij.
      assert (Hu : 0 <= u < g_size g) by (apply KIn; eapply nth_error_In; eauto).
      pose proof (NoDup_nth_error_inj _ _ _ _ (gr_nodup g Hg) El Eij).
      assert (t = u) by lia. subst u. eapply NoDup_nth_error_inj; eauto.
    - intros lid H. apply In_nth_error in H. destruct H as [k Hk].
      assert (k < length K)%nat by (rewrite <- LLoc; apply nth_error_Some; congruence).
      destruct (nth_error K k) as [t|] eqn:Ek; [|apply nth_error_None in Ek; lia].
      rewrite (Eloc _ _ Ek) in Hk. apply (gr_pos g Hg). eapply nth_error_In; eauto. }
  split; auto. split; auto. split; auto. split; auto.
  split.
  { constructor; auto.
    - rewrite (si_o _ _ _ _ I). auto.
    - apply I.
    - intros k t Hk E. assert (0 <= t < g_size g) by (apply KIn; eapply nth_error_In; eauto).
      split; auto. apply (si_k _ _ _ _ I) in E. rewrite (proj1 E). f_equal. lia.
    - intros t k Ht E. assert (Z.to_nat t < length (ss_from s))%nat by (apply nth_error_Some; congruence).
      pose proof (si_lf _ _ _ _ I). destruct (keep rm t) eqn:Kt.
      + assert (Ik : In t K) by (unfold K; apply filter_In; split; auto; apply zcount_In; lia).
        apply In_nth_error in Ik. destruct Ik as [j Hj]. pose proof (si_k _ _ _ _ I _ _ Hj) as [J1 _].
        right. assert (k = Z.of_nat j) by congruence. subst k. rewrite Nat2Z.id. split; auto.
        assert (j < length K)%nat by (apply nth_error_Some; congruence). rewrite (si_o _ _ _ _ I). fold K. lia.
      + left. rewrite (si_rm _ _ _ _ I t) in E; try lia; auto. congruence. }
  split; auto. split; auto.
  intros t Ht. unfold Remains. simpl. split.
  - intros [_ [k [E Hk]]] Hin. apply keep_In in Hin. rewrite (si_rm _ _ _ _ I t) in E; auto. injection E as <-. lia.
  - intros Hn. split; [lia|]. assert (Ik : In t K) by (apply KIn; auto).
    apply In_nth_error in Ik. destruct Ik as [j Hj]. pose proof (si_k _ _ _ _ I _ _ Hj) as [J1 _]. eexists; split; eauto. lia.
Qed.

Lemma shrink_abort gid g rm : Group g -> (exists x, In x rm /\ ~ (0 <= x < g_size g)) ->
  new_shrinked_group gid g rm = Abort.
Proof.
  intros Hg Hx. unfold new_shrinked_group, clone_group. rewrite (Group_locs g Hg). simpl.
  assert (A : forall f, Z.of_nat (length f) = g_size g -> ofold (shrink_mark (g_size g)) rm f = Abort).
  { induction rm as [|x rm IH]; intros f Hf; [destruct Hx as [x [[] _]]|]. simpl.
    unfold shrink_mark at 1. destruct ((0 <=? x) && (x <? g_size g)) eqn:E; simpl; auto.
    rewrite awrite_ok by lia. simpl. apply IH.
    - destruct Hx as [y [[->|Hy] Hn]]; [lia|]. eauto.
    - rewrite upd_length. auto. }
  rewrite A; auto. rewrite map_length, zcount_length. pose proof (Group_size g Hg). lia.
Qed.
