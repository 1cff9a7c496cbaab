(* The store in a program with the single backend: operations and synchronisations in any order *)
From Coq Require Import ZArith List Bool Lia ZifyBool ZifyNat Sorted Permutation.
From Verif Require Import Base Model_RangeList Model_KVS Spec_RangeList Spec_KVS Proof_RangeList5 Proof_KVS Proof_KVS2 Proof_KVS3 Proof_KVS4 Proof_KVS5.
Import ListNotations.
Open Scope Z_scope.

Definition SInv (V : list Z -> Prop) (s : store) (m : kmap) : Prop :=
  KI s /\ ks_insync s = false /\ (forall k, seen (ks_ent s) k = m k) /\ (forall k v, m k = Some v -> V v) /\ exists J, JRep (ks_changes s) J [].

Lemma SInv_ext V s m m' : (forall k, m k = m' k) -> SInv V s m -> SInv V s m'.
Proof.
  intros E (H1 & H2 & H3 & H4 & H5). unfold SInv. conjs; auto.
  - intros k. rewrite <- E. auto.
  - intros k v. rewrite <- E. apply H4.
Qed.

Lemma set_SInv V s m k v : PrefixFree V -> SInv V s m -> V v -> exists s', kvs_set s k v = Ok s' /\ SInv V s' (mput m k (Some v)).
Proof.
  intros PF (H1 & H2 & H3 & H4 & [J H5]) Hv.
  assert (HV : forall k w, seen (ks_ent s) k = Some w -> V w) by (intros k0 w; rewrite H3; apply H4).
  destruct (kvs_set_spec V s k v J PF H1 H5 H2 HV Hv) as [[E1 E2]|[N [s' (E1 & E2 & E3 & E4 & E5)]]].
  - exists s. split; auto. unfold SInv. conjs; auto; [| |exists J; auto].
    + intros k'. unfold mput. fold keq. destruct (keq k' k) as [->|]; auto.
    + intros k' w. unfold mput. fold keq. destruct (keq k' k) as [->|]; [intros E; injection E as <-; auto|apply H4].
  - exists s'. split; auto. unfold SInv. conjs; auto; [| |eauto].
    + intros k'. rewrite (seen_look _ k' _ _ _ E5). unfold mput. fold keq. destruct (keq k' k); auto. apply H3.
    + intros k' w. unfold mput. fold keq. destruct (keq k' k) as [->|]; [intros E; injection E as <-; auto|apply H4].
Qed.

Lemma remove_SInv V s m i e : SInv V s m -> nth_error (ks_ent s) i = Some e ->
  exists s', remove_entry s i = Ok s' /\ SInv V s' (mput m (ke_key e) None) /\ map ke_key (ks_ent s') = map ke_key (ks_ent s).
Proof.
  intros (H1 & H2 & H3 & H4 & [J H5]) Hi.
  destruct (remove_entry_spec s i e J H1 H5 H2 Hi) as [s' (E1 & E2 & E3 & E4 & E5 & E6)].
  exists s'. split; auto. split; auto. unfold SInv. conjs; auto; [| |eauto].
  - intros k'. rewrite (seen_look _ k' _ _ _ E5). unfold mput. fold keq. destruct (keq k' (ke_key e)); auto. apply H3.
  - intros k' w. unfold mput. fold keq. destruct (keq k' (ke_key e)) as [->|]; [discriminate|apply H4].
Qed.

Lemma sort_SInv V s m q : is_qsort kvs_cmp q -> SInv V s m -> SInv V (kvs_sort q s) m.
Proof.
  intros Q (H1 & H2 & H3 & H4 & H5). destruct (Q (ks_ent s)) as [Q1 _].
  unfold SInv. conjs; auto.
  - now apply KI_sort.
  - intros k. cbn [kvs_sort ks_ent]. unfold seen. rewrite <- (look_perm (ks_ent s) (q (ks_ent s))); auto; [apply H3|apply H1].
Qed.

Lemma clean_SInv V : forall n s m a, SInv V s m -> (a + n = length (ks_ent s))%nat ->
  (forall i e, (i < a)%nat -> nth_error (ks_ent s) i = Some e -> ke_val e = None) ->
  exists s', ofold (fun s i => match nth_error (ks_ent s) i with
                    | Some e => match ke_val e with None => Ok s | Some _ => remove_entry s i end
                    | None => UB end) (seq a n) s = Ok s' /\ SInv V s' (fun _ => None).
Proof.
  induction n; intros s m a HL Hl HI.
  - exists s. split; auto. apply (SInv_ext _ _ m); auto. destruct HL as (H1 & H2 & H3 & _). intros k. rewrite <- H3. unfold seen.
    destruct (look (ks_ent s) k) as [[x u]|] eqn:E; auto. destruct (look_some_in _ _ _ E) as [e [He <-]]. apply In_nth_error in He. destruct He as [i He].
    rewrite (look_nth _ i e) in E by (auto; apply H1). injection E as <- <-. apply (HI i e); auto.
    assert (i < length (ks_ent s))%nat by (apply nth_error_Some; congruence). lia.
  - cbn [seq ofold]. destruct (nth_error (ks_ent s) a) as [e|] eqn:Ea; [|apply nth_error_None in Ea; lia].
    destruct (ke_val e) as [x|] eqn:Ev.
    + destruct (remove_SInv V s m a e HL Ea) as [s' (E1 & E2 & E3)]. rewrite E1. cbn [obind].
      assert (Len : length (ks_ent s') = length (ks_ent s)) by (rewrite <- (map_length ke_key), E3, map_length; auto).
      apply (IHn s' (mput m (ke_key e) None) (S a) E2); [lia|].
      intros i e' Hi He'. assert (X := E1). unfold remove_entry in X. rewrite Ea in X. destruct HL as (_ & Hn & _). rewrite Hn in X.
      apply obind_ok in X. destruct X as [c [_ X]]. injection X as <-. cbn [set_changes put_entry ks_ent] in He'.
      destruct (Nat.eq_dec a i) as [<-|N].
      * rewrite upd_nth_same in He' by (apply nth_error_Some; congruence). injection He' as <-. reflexivity.
      * rewrite upd_nth_other in He' by auto. apply (HI i e'); auto. lia.
    + cbn [obind]. apply (IHn s m (S a) HL); [lia|]. intros i e' Hi He'. destruct (Nat.eq_dec i a) as [->|]; [congruence|]. apply (HI i e'); auto. lia.
Qed.

Lemma op_SInv V q s m o : PrefixFree V -> is_qsort kvs_cmp q -> SInv V s m -> OpOk V o ->
  exists s', exec_op q s o = Ok s' /\ SInv V s' (map_op m o).
Proof.
  intros PF Q HL HO. destruct o as [k v|k str|k| |]; simpl in *.
  - apply set_SInv; auto. apply HO.
  - apply set_SInv; auto. apply HO.
  - unfold kvs_remove. destruct (kvs_entry_spec s k) as [r [-> R]]; [apply HL|]. cbn [obind]. destruct r as [i|].
    + destruct R as [e [E1 [E2 E3]]]. destruct (remove_SInv V s m i e HL E1) as [s' (F1 & F2 & F3)]. rewrite F1. simpl. rewrite E2 in F2. eauto.
    + simpl. assert (M : m k = None) by (destruct HL as (_ & _ & H3 & _); rewrite <- H3; unfold seen; now rewrite R).
      exists s. split; auto. apply (SInv_ext _ _ m); auto. intros k'. unfold mput. fold keq. destruct (keq k' k) as [->|]; auto.
  - unfold kvs_clean. apply (clean_SInv V _ s m 0); auto. intros; lia.
  - eexists. split; [reflexivity|]. now apply sort_SInv.
Qed.

Lemma sync_SInv V q s m : is_qsort kvs_cmp q -> SInv V s m -> exists s', kvs_sync_single q s = Ok s' /\ SInv V s' m /\ ks_sorted s' = used s'.
Proof.
  intros Q (H1 & H2 & H3 & H4 & [J H5]). unfold kvs_sync_single, sync_end. cbn [sync_begin ks_changes ks_size ks_ent ks_sorted].
  destruct (set_size0 (ks_changes s) (proj1 H5)) as [c' [E1 [E2 [E3 _]]]]. rewrite E1. cbn [obind]. eexists. split; [reflexivity|]. split.
  - apply sort_SInv; auto. unfold SInv. cbn [ks_insync ks_ent ks_changes]. conjs; auto; [| |exists []; auto].
    + destruct H1 as (N & B1 & S & P1 & P2). unfold KI, used in *; cbn [ks_ent ks_sorted ks_size]. rewrite map_length, map_map. cbn [ke_key]. conjs; auto; try lia.
      rewrite firstn_map, map_map. cbn [ke_key]. auto.
    + intros k. rewrite <- H3. unfold seen. fold clearu. rewrite look_clear. destruct (look (ks_ent s) k) as [[v u]|]; auto.
  - unfold kvs_sort, used; cbn [ks_sorted ks_ent]. f_equal. apply Permutation_length. apply Q.
Qed.

Lemma new_SInv V : exists s, kvs_new = Ok s /\ SInv V s (fun _ => None).
Proof. destruct (new_LInv V) as [s [E [(H1 & H2 & H3 & H4 & _ & H5 & _) _]]]. exists s. split; auto. unfold SInv. conjs; eauto. Qed.
