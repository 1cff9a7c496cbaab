(* Strings, search in the store *)
From Coq Require Import ZArith List Bool Lia ZifyBool ZifyNat Sorted Permutation.
From Verif Require Import Base Model_RangeList Model_KVS Spec_RangeList Spec_KVS Proof_RangeList5.
Import ListNotations.
Open Scope Z_scope.

Lemma str_cmp_refl a : str_cmp a a = 0.
Proof. induction a; simpl; auto. rewrite Z.gtb_ltb, Z.ltb_irrefl. auto. Qed.

Lemma str_cmp_eq a b : str_cmp a b = 0 <-> a = b.
Proof.
  split; [|intros ->; apply str_cmp_refl]. revert b; induction a; destruct b; simpl; intros H; try discriminate; auto.
  destruct (a <? z) eqn:E; [discriminate|]. destruct (a >? z) eqn:E2; [discriminate|]. f_equal; [lia|auto].
Qed.

Lemma str_cmp_anti a b : str_cmp b a = - str_cmp a b.
Proof.
  revert b; induction a; destruct b; simpl; auto. rewrite IHa.
  destruct (a <? z) eqn:E1, (z <? a) eqn:E2, (a >? z) eqn:E3, (z >? a) eqn:E4; simpl; lia.
Qed.

Lemma str_cmp_trans a b c : str_cmp a b < 0 -> str_cmp b c < 0 -> str_cmp a c < 0.
Proof.
  revert b c; induction a; destruct b, c; simpl; intros; try lia.
  destruct (a <? z) eqn:E1, (z <? z0) eqn:E2, (a >? z) eqn:E3, (z >? z0) eqn:E4, (a <? z0) eqn:E5, (a >? z0) eqn:E6; try lia.
  eapply IHa; eauto.
Qed.

Definition slt (a b : list Z) : Prop := str_cmp a b < 0.

Lemma slt_irrefl a : ~ slt a a.
Proof. unfold slt. rewrite str_cmp_refl. lia. Qed.

Definition keq := list_eq_dec Z.eq_dec.

Fixpoint look (l : list kentry) (k : list Z) : option (option (list Z) * bool) :=
  match l with
  | [] => None
  | e :: l' => if keq k (ke_key e) then Some (ke_val e, ke_upd e) else look l' k
  end.

Lemma look_none l k : look l k = None <-> ~ In k (map ke_key l).
Proof.
  induction l; simpl; [tauto|]. destruct (keq k (ke_key a)) as [->|N].
  - split; [discriminate|]. intros H. exfalso. apply H. auto.
  - rewrite IHl. split; intros H; [intros [E|E]; [congruence|tauto]|tauto].
Qed.

Lemma look_nth l i e : NoDup (map ke_key l) -> nth_error l i = Some e -> look l (ke_key e) = Some (ke_val e, ke_upd e).
Proof.
  revert i; induction l; intros i N H; [destruct i; discriminate|]. simpl in N. inversion N; subst. destruct i; simpl in H.
  - injection H as ->. simpl. destruct (keq _ _); congruence.
  - simpl. destruct (keq (ke_key e) (ke_key a)) as [E|E]; [|eauto]. exfalso. apply H2. rewrite <- E.
    apply in_map. eapply nth_error_In; eauto.
Qed.

Lemma look_upd l i e e' k : NoDup (map ke_key l) -> nth_error l i = Some e -> ke_key e' = ke_key e ->
  look (upd i e' l) k = if keq k (ke_key e) then Some (ke_val e', ke_upd e') else look l k.
Proof.
  revert i; induction l; intros i N H Hk; [destruct i; discriminate|]. simpl in N. inversion N; subst. destruct i; simpl in *.
  - injection H as ->. rewrite Hk. destruct (keq k (ke_key e)); auto.
  - destruct (keq k (ke_key a)) as [E|E].
    + destruct (keq k (ke_key e)) as [E'|E']; auto. exfalso. apply H2. rewrite <- E, E'. apply in_map. eapply nth_error_In; eauto.
    + apply IHl; auto.
Qed.

Lemma upd_keys l i e e' : nth_error l i = Some e -> ke_key e' = ke_key e -> map ke_key (upd i e' l) = map ke_key l.
Proof.
  revert i; induction l; intros i H Hk; [destruct i; discriminate|]. destruct i; simpl in *.
  - injection H as ->. now rewrite Hk.
  - f_equal. eauto.
Qed.

Lemma look_app l e k : ~ In (ke_key e) (map ke_key l) ->
  look (l ++ [e]) k = if keq k (ke_key e) then Some (ke_val e, ke_upd e) else look l k.
Proof.
  induction l; simpl; intros N; auto.
  destruct (keq k (ke_key a)) as [E|E]; [|apply IHl; tauto]. destruct (keq k (ke_key e)); auto. exfalso. apply N. left. congruence.
Qed.

Lemma look_perm l l' k : Permutation l l' -> NoDup (map ke_key l) -> look l k = look l' k.
Proof.
  intros P N. destruct (look l' k) as [[v u]|] eqn:E.
  - assert (G : forall l k v u, look l k = Some (v, u) -> exists e, In e l /\ ke_key e = k /\ ke_val e = v /\ ke_upd e = u).
    { clear. induction l; simpl; intros k v u H; [discriminate|]. destruct (keq k (ke_key a)) as [->|].
      - injection H as <- <-. exists a. auto.
      - destruct (IHl _ _ _ H) as [e [H1 H2]]. exists e. auto. }
    apply G in E. destruct E as [e [E1 [<- [<- <-]]]]. apply Permutation_sym in P. apply (Permutation_in _ P) in E1.
    apply In_nth_error in E1. destruct E1 as [i E1]. eapply look_nth; eauto.
  - rewrite look_none in *. intros H. apply E. eapply Permutation_in; [apply Permutation_map; exact P|auto].
Qed.

(* invariant of the entry array *)
Definition KI (s : store) : Prop :=
  NoDup (map ke_key (ks_ent s)) /\ 0 <= ks_sorted s <= used s /\
  StronglySorted slt (map ke_key (firstn (Z.to_nat (ks_sorted s)) (ks_ent s))) /\ 0 < ks_size s /\ used s <= ks_size s.

Lemma SS_nth (l : list (list Z)) i j a b : StronglySorted slt l -> nth_error l i = Some a -> nth_error l j = Some b -> (i < j)%nat -> slt a b.
Proof.
  revert i j; induction l; intros i j S Hi Hj H; [destruct i; discriminate|]. apply StronglySorted_inv in S. destruct S as [S F].
  rewrite Forall_forall in F. destruct j; [lia|]. simpl in Hj. destruct i; simpl in Hi.
  - injection Hi as <-. apply F. eapply nth_error_In; eauto.
  - eapply IHl; eauto. lia.
Qed.

Lemma nth_error_firstn {A} (l : list A) n i : (i < n)%nat -> nth_error (firstn n l) i = nth_error l i.
Proof. revert n i; induction l; destruct n, i; simpl; intros; try lia; auto. apply IHl. lia. Qed.

Lemma bsearch_spec l key srt : (srt <= length l)%nat -> StronglySorted slt (map ke_key (firstn srt l)) ->
  forall n low high, 0 <= low -> high < Z.of_nat srt -> (Z.to_nat (high - low + 2) <= n)%nat -> (0 < n)%nat ->
  (forall i e, (i < srt)%nat -> nth_error l i = Some e -> ke_key e = key -> low <= Z.of_nat i <= high) ->
  exists r, bsearch n l key low high = Ok r /\
    match r with Some i => exists e, nth_error l i = Some e /\ ke_key e = key
    | None => forall i e, (i < srt)%nat -> nth_error l i = Some e -> ke_key e <> key end.
Proof.
  intros Hl HS. induction n; intros low high H1 H2 H3 H4 HI; [lia|]. simpl.
  destruct (low <=? high) eqn:E.
  - assert (Hm : low <= (low + high) / 2 <= high) by (split; [apply Z.div_le_lower_bound; lia|apply Z.div_le_upper_bound; lia]).
    set (mid := (low + high) / 2) in *. clearbody mid. unfold aread. destruct (mid <? 0) eqn:E0; [lia|].
    destruct (nth_error l (Z.to_nat mid)) as [em|] eqn:Em.
    2:{ apply nth_error_None in Em. lia. }
    cbn [obind].
    assert (Key : forall i e, (i < srt)%nat -> nth_error l i = Some e -> nth_error (map ke_key (firstn srt l)) i = Some (ke_key e)).
    { intros i e Hi He. rewrite nth_error_map, nth_error_firstn, He by lia. reflexivity. }
    destruct (str_cmp key (ke_key em) =? 0) eqn:R0.
    { eexists. split; [reflexivity|]. exists em. split; auto. symmetry. apply str_cmp_eq. lia. }
    destruct (str_cmp key (ke_key em) <? 0) eqn:R1.
    + apply IHn; try lia. intros i e Hi He Hk. specialize (HI i e Hi He Hk). split; [lia|].
      destruct (Z_le_dec mid (Z.of_nat i)); [|lia]. exfalso.
      destruct (Nat.eq_dec i (Z.to_nat mid)) as [->|N].
      * rewrite Em in He. injection He as ->. rewrite Hk, str_cmp_refl in R0. lia.
      * assert (X := SS_nth _ _ _ _ _ HS (Key (Z.to_nat mid) em ltac:(lia) Em) (Key i e Hi He) ltac:(lia)). unfold slt in X. rewrite Hk in X.
        rewrite str_cmp_anti in X. lia.
    + apply IHn; try lia. intros i e Hi He Hk. specialize (HI i e Hi He Hk). split; [|lia].
      destruct (Z_le_dec (Z.of_nat i) mid); [|lia]. exfalso.
      destruct (Nat.eq_dec i (Z.to_nat mid)) as [->|N].
      * rewrite Em in He. injection He as ->. rewrite Hk, str_cmp_refl in R0. lia.
      * assert (X := SS_nth _ _ _ _ _ HS (Key i e Hi He) (Key (Z.to_nat mid) em ltac:(lia) Em) ltac:(lia)). unfold slt in X. rewrite Hk in X. lia.
  - eexists. split; [reflexivity|]. simpl. intros i e Hi He Hk. specialize (HI i e Hi He Hk). lia.
Qed.

Lemma lsearch_spec l key k :
  match lsearch l key k with
  | Some i => (k <= i)%nat /\ exists e, nth_error l (i - k) = Some e /\ ke_key e = key
  | None => ~ In key (map ke_key l)
  end.
Proof.
  revert k; induction l; intros k; simpl; [tauto|]. destruct (str_cmp (ke_key a) key =? 0) eqn:E.
  - split; [lia|]. rewrite Nat.sub_diag. exists a. split; auto. apply str_cmp_eq. lia.
  - specialize (IHl (S k)). destruct (lsearch l key (S k)) as [i|].
    + destruct IHl as [H1 H2]. split; [lia|]. replace (i - k)%nat with (S (i - S k)) by lia. exact H2.
    + intros [H|H]; [|tauto]. rewrite H, str_cmp_refl in E. lia.
Qed.

Lemma nth_error_skipn' {A} (l : list A) n i : nth_error (skipn n l) i = nth_error l (n + i).
Proof. revert l; induction n; destruct l; simpl; auto. destruct i; auto. Qed.

Lemma kvs_entry_spec s key : KI s -> exists r, kvs_entry s key = Ok r /\
  match r with Some i => exists e, nth_error (ks_ent s) i = Some e /\ ke_key e = key /\ look (ks_ent s) key = Some (ke_val e, ke_upd e)
  | None => look (ks_ent s) key = None end.
Proof.
  intros (N & B & S & _ & _). unfold used in B. unfold kvs_entry.
  destruct (bsearch_spec (ks_ent s) key (Z.to_nat (ks_sorted s)) ltac:(lia) S (Datatypes.S (length (ks_ent s))) 0 (ks_sorted s - 1)) as [r [E H]]; try lia.
  rewrite E. cbn [obind]. destruct r as [i|].
  - eexists. split; [reflexivity|]. destruct H as [e [H1 H2]]. exists e. conjs; auto. rewrite <- H2. eapply look_nth; eauto.
  - eexists. split; [reflexivity|]. assert (L := lsearch_spec (skipn (Z.to_nat (ks_sorted s)) (ks_ent s)) key (Z.to_nat (ks_sorted s))).
    destruct (lsearch _ _ _) as [i|].
    + destruct L as [L1 [e [L2 L3]]]. exists e. rewrite nth_error_skipn' in L2.
      replace (Z.to_nat (ks_sorted s) + (i - Z.to_nat (ks_sorted s)))%nat with i in L2 by lia. conjs; auto. rewrite <- L3. eapply look_nth; eauto.
    + apply look_none. intros HI. apply in_map_iff in HI. destruct HI as [e [H1 H2]]. apply In_nth_error in H2. destruct H2 as [i H2].
      destruct (Nat.lt_ge_cases i (Z.to_nat (ks_sorted s))) as [Hi|Hi].
      * exact (H i e Hi H2 H1).
      * apply L. rewrite <- H1. apply in_map. apply nth_error_In with (n := (i - Z.to_nat (ks_sorted s))%nat).
        rewrite nth_error_skipn'. replace (_ + _)%nat with i by lia. auto.
Qed.

(* what the user sees under a key *)
Definition seen (l : list kentry) (k : list Z) : option (list Z) := match look l k with Some (v, _) => v | None => None end.

Lemma kvs_get_seen s k : KI s -> kvs_get s k = Ok (seen (ks_ent s) k).
Proof.
  intros H. unfold kvs_get, seen. destruct (kvs_entry_spec s k H) as [r [-> R]]. cbn [obind]. destruct r as [i|].
  - destruct R as [e [-> [_ ->]]]. reflexivity.
  - now rewrite R.
Qed.

Lemma KI_put s i e e' : KI s -> nth_error (ks_ent s) i = Some e -> ke_key e' = ke_key e -> KI (put_entry s i e').
Proof.
  intros (N & B & S & P) H Hk. unfold KI, put_entry, used in *; simpl. rewrite upd_length. conjs; auto; try lia.
  - rewrite (upd_keys _ _ _ _ H Hk). auto.
  - rewrite <- firstn_map in *. rewrite (upd_keys _ _ _ _ H Hk). auto.
Qed.

Lemma KI_changes s c : KI s -> KI (set_changes s c).
Proof. intros H. exact H. Qed.

Lemma KI_sort q s : is_qsort kvs_cmp q -> KI s -> KI (kvs_sort q s).
Proof.
  intros Q (N & B & S & P1 & P2). destruct (Q (ks_ent s)) as [Q1 Q2]. unfold KI, kvs_sort, used in *; simpl.
  assert (L := Permutation_length Q1).
  assert (N' : NoDup (map ke_key (q (ks_ent s)))) by (eapply Permutation_NoDup; [apply Permutation_map; exact Q1|auto]).
  conjs; auto; try lia. rewrite Nat2Z.id, L, firstn_all.
  clear - Q2 N'. induction Q2; simpl in *; constructor; inversion N'; subst; auto.
  rewrite Forall_forall in *. intros k Hk. apply in_map_iff in Hk. destruct Hk as [e [<- He]].
  assert (X := H e He). unfold kvs_cmp in X. unfold slt. destruct (Z.eq_dec (str_cmp (ke_key a) (ke_key e)) 0) as [E|E]; [|lia].
  apply str_cmp_eq in E. exfalso. apply H2. rewrite E. now apply in_map.
Qed.
