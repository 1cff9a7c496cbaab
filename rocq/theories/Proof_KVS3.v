(* Operations of one process on its store *)
From Coq Require Import ZArith List Bool Lia ZifyBool ZifyNat Sorted Permutation.
From Verif Require Import Base Model_RangeList Model_KVS Spec_RangeList Spec_KVS Proof_RangeList5 Proof_KVS Proof_KVS2.
Import ListNotations.
Open Scope Z_scope.

Lemma memcmp_cases p v :
  (memcmp_eq p v = Ok true /\ exists t, p = v ++ t) \/
  (memcmp_eq p v = Ok false /\ p <> v) \/
  (memcmp_eq p v = UB /\ exists t, t <> [] /\ v = p ++ t).
Proof.
  revert p; induction v as [|x v IH]; intros p; simpl.
  - left. split; [destruct p; reflexivity|]. exists p. auto.
  - destruct p as [|y p].
    + right; right. split; [assumption || reflexivity|]. exists (x :: v). split; [discriminate|auto].
    + cbn [memcmp_eq]. destruct (x =? y) eqn:E.
      * assert (x = y) by lia. subst y. destruct (IH p) as [[H [t ->]]|[[H N]|[H [t [T ->]]]]].
        -- left. split; [assumption || reflexivity|]. exists t. auto.
        -- right; left. split; [assumption || reflexivity|]. congruence.
        -- right; right. split; [assumption || reflexivity|]. exists t. auto.
      * right; left. split; [assumption || reflexivity|]. intros H. injection H as H. lia.
Qed.

Lemma memcmp_pf V p v : PrefixFree V -> V p -> V v -> memcmp_eq p v = Ok (if keq p v then true else false).
Proof.
  intros PF Hp Hv. destruct (memcmp_cases p v) as [[H [t E]]|[[H N]|[H [t [T E]]]]].
  - rewrite (PF v p t Hv Hp E), app_nil_r in E. rewrite H. destruct (keq p v); congruence.
  - rewrite H. destruct (keq p v); congruence.
  - exfalso. apply T. exact (PF p v t Hp Hv E).
Qed.

Definition upd_look (f : list Z -> option (option (list Z) * bool)) (k : list Z) x : list Z -> option (option (list Z) * bool) :=
  fun k' => if keq k' k then Some x else f k'.

Lemma nth_error_app_last {A} (l : list A) x : nth_error (l ++ [x]) (length l) = Some x.
Proof. rewrite nth_error_app2, Nat.sub_diag by lia. reflexivity. Qed.

Lemma KI_snoc s key size : KI s -> look (ks_ent s) key = None -> (used s < size) -> 0 < size ->
  KI (mkKvs size (ks_ent s ++ [mkKe key None false]) (ks_sorted s) (ks_changes s) (ks_insync s)).
Proof.
  intros (N & B & S & P1 & P2) L Hs Hp. unfold KI, used in *; simpl. rewrite map_app, app_length. simpl. conjs; auto; try lia.
  - apply look_none in L. apply Permutation_NoDup with (l := key :: map ke_key (ks_ent s)); [apply Permutation_cons_append|constructor; auto].
  - rewrite firstn_app. replace (Z.to_nat (ks_sorted s) - length (ks_ent s))%nat with 0%nat by lia. simpl. rewrite app_nil_r. auto.
Qed.

Lemma store_value_ok s i e k v J : KI s -> nth_error (ks_ent s) i = Some e -> ke_key e = k -> JRep (ks_changes s) J [] -> ks_insync s = false ->
  exists s', kvs_store_value s i e k v = Ok s' /\ KI s' /\ JRep (ks_changes s') (J ++ [mkJe k v]) [] /\ ks_insync s' = false /\
    forall k', look (ks_ent s') k' = upd_look (look (ks_ent s)) k (Some v, true) k'.
Proof.
  intros HK Hi Hk HJ Hn. unfold kvs_store_value. rewrite Hn, andb_false_r.
  destruct (add_alloc (ks_changes s) J k v HJ) as [c [E1 E2]]. cbn [put_entry ks_changes]. rewrite E1. cbn [obind].
  eexists. split; [reflexivity|]. conjs; auto.
  - apply KI_changes. apply (KI_put s i e); auto.
  - intros k'. cbn [set_changes put_entry ks_ent]. destruct HK as (N & _). rewrite (look_upd _ i e) by auto. unfold upd_look. rewrite Hk. reflexivity.
Qed.

Lemma kvs_set_spec V s k v J : PrefixFree V -> KI s -> JRep (ks_changes s) J [] -> ks_insync s = false ->
  (forall k w, seen (ks_ent s) k = Some w -> V w) -> V v ->
  (seen (ks_ent s) k = Some v /\ kvs_set s k v = Ok s) \/
  (seen (ks_ent s) k <> Some v /\ exists s', kvs_set s k v = Ok s' /\ KI s' /\ JRep (ks_changes s') (J ++ [mkJe k v]) [] /\ ks_insync s' = false /\
    forall k', look (ks_ent s') k' = upd_look (look (ks_ent s)) k (Some v, true) k').
Proof.
  intros PF HK HJ Hn HV Hv. unfold kvs_set. destruct (kvs_entry_spec s k HK) as [r [-> R]]. cbn [obind]. destruct r as [i|].
  - destruct R as [e [E1 [E2 E3]]]. rewrite E1. assert (Sn : seen (ks_ent s) k = ke_val e) by (unfold seen; now rewrite E3).
    destruct (ke_val e) as [old|] eqn:Eo.
    + rewrite (memcmp_pf V) by (auto; apply HV with (k := k); auto). cbn [obind]. destruct (keq old v) as [->|N].
      * left. rewrite Sn. auto.
      * right. rewrite Sn. split; [congruence|]. apply store_value_ok; auto.
    + right. rewrite Sn. split; [discriminate|]. apply store_value_ok; auto.
  - right. split; [unfold seen; rewrite R; discriminate|].
    set (size := if used s =? ks_size s then ks_size s * 2 else ks_size s).
    assert (Hs : used s < size /\ 0 < size).
    { destruct HK as (_ & _ & _ & P1 & P2). unfold size. destruct (used s =? ks_size s) eqn:E; unfold used in *; lia. }
    destruct (used s >=? size) eqn:E; [lia|].
    destruct (store_value_ok (mkKvs size (ks_ent s ++ [mkKe k None false]) (ks_sorted s) (ks_changes s) (ks_insync s)) (length (ks_ent s)) (mkKe k None false) k v J)
      as [s' (S1 & S2 & S3 & S4 & S5)]; auto.
    + apply KI_snoc; auto; lia.
    + apply nth_error_app_last.
    + exists s'. conjs; auto. intros k'. rewrite S5. simpl ks_ent. unfold upd_look. destruct (keq k' k); auto.
      rewrite look_app by (simpl; now apply look_none). simpl. destruct (keq k' k); congruence.
Qed.

(* in sync *)
Lemma kvs_set_sync V s k v : PrefixFree V -> KI s -> ks_insync s = true ->
  (forall k w, seen (ks_ent s) k = Some w -> V w) -> V v ->
  (seen (ks_ent s) k = Some v /\ kvs_set s k v = Ok s) \/
  (seen (ks_ent s) k <> Some v /\ (exists x, look (ks_ent s) k = Some (x, true)) /\ kvs_set s k v = Panic) \/
  (seen (ks_ent s) k <> Some v /\ (forall x, look (ks_ent s) k <> Some (x, true)) /\ exists s', kvs_set s k v = Ok s' /\ KI s' /\ ks_changes s' = ks_changes s /\ ks_insync s' = true /\
    forall k', look (ks_ent s') k' = upd_look (look (ks_ent s)) k (Some v, false) k').
Proof.
  intros PF HK Hn HV Hv. unfold kvs_set. destruct (kvs_entry_spec s k HK) as [r [-> R]]. cbn [obind].
  assert (G : forall s i e, KI s -> nth_error (ks_ent s) i = Some e -> ke_key e = k -> ks_insync s = true -> look (ks_ent s) k = Some (ke_val e, ke_upd e) ->
     ((exists x, look (ks_ent s) k = Some (x, true)) /\ kvs_store_value s i e k v = Panic) \/
     ((forall x, look (ks_ent s) k <> Some (x, true)) /\ exists s', kvs_store_value s i e k v = Ok s' /\ KI s' /\ ks_changes s' = ks_changes s /\ ks_insync s' = true /\
       forall k', look (ks_ent s') k' = upd_look (look (ks_ent s)) k (Some v, false) k')).
  { clear s HK Hn HV R. intros s i e HK Hi Hk Hn Hl. unfold kvs_store_value. rewrite Hn, andb_true_r. destruct (ke_upd e) eqn:U.
    - left. split; [|reflexivity]. rewrite Hl. eauto.
    - right. split; [intros x; rewrite Hl; congruence|]. eexists. split; [reflexivity|]. conjs; auto.
      + apply (KI_put s i e); auto.
      + intros k'. cbn [put_entry ks_ent]. destruct HK as (N & _). rewrite (look_upd _ i e) by auto. unfold upd_look. rewrite Hk. reflexivity. }
  destruct r as [i|].
  - destruct R as [e [E1 [E2 E3]]]. rewrite E1. assert (Sn : seen (ks_ent s) k = ke_val e) by (unfold seen; now rewrite E3).
    destruct (ke_val e) as [old|] eqn:Eo.
    + rewrite (memcmp_pf V) by (auto; apply HV with (k := k); auto). cbn [obind]. destruct (keq old v) as [->|N].
      * left. rewrite Sn. auto.
      * right. rewrite Sn. destruct (G s i e) as [G1|G1]; auto; [rewrite Eo; auto| |]; [left|right]; split; auto; congruence.
    + right. rewrite Sn. destruct (G s i e) as [G1|G1]; auto; [rewrite Eo; auto| |]; [left|right]; split; auto; discriminate.
  - right. assert (Sn : seen (ks_ent s) k = None) by (unfold seen; now rewrite R).
    set (size := if used s =? ks_size s then ks_size s * 2 else ks_size s).
    assert (Hs : used s < size /\ 0 < size).
    { destruct HK as (_ & _ & _ & P1 & P2). unfold size. destruct (used s =? ks_size s) eqn:E; unfold used in *; lia. }
    destruct (used s >=? size) eqn:E; [lia|].
    assert (La : forall k', look (ks_ent s ++ [mkKe k None false]) k' = if keq k' k then Some (None, false) else look (ks_ent s) k').
    { intros k'. apply (look_app (ks_ent s) (mkKe k None false)). now apply look_none. }
    destruct (G (mkKvs size (ks_ent s ++ [mkKe k None false]) (ks_sorted s) (ks_changes s) (ks_insync s)) (length (ks_ent s)) (mkKe k None false)) as [[[x G1] _]|[G1 [s' (S1 & S2 & S3 & S4 & S5)]]]; auto.
    + apply KI_snoc; auto; lia.
    + apply nth_error_app_last.
    + simpl ks_ent. rewrite La. destruct (keq k k); [reflexivity|congruence].
    + exfalso. simpl ks_ent in G1. rewrite La in G1. destruct (keq k k); congruence.
    + right. split; [rewrite Sn; discriminate|]. split; [intros x; rewrite R; discriminate|]. exists s'. conjs; auto.
      intros k'. rewrite S5. simpl ks_ent. unfold upd_look. destruct (keq k' k); auto. rewrite La. destruct (keq k' k); congruence.
Qed.

Lemma remove_entry_spec s i e J : KI s -> JRep (ks_changes s) J [] -> ks_insync s = false -> nth_error (ks_ent s) i = Some e ->
  exists s', remove_entry s i = Ok s' /\ KI s' /\ JRep (ks_changes s') (J ++ [mkJe (ke_key e) []]) [] /\ ks_insync s' = false /\
    (forall k', look (ks_ent s') k' = upd_look (look (ks_ent s)) (ke_key e) (None, ke_upd e) k') /\
    map ke_key (ks_ent s') = map ke_key (ks_ent s).
Proof.
  intros HK HJ Hn Hi. unfold remove_entry. rewrite Hi, Hn.
  destruct (add_alloc (ks_changes s) J (ke_key e) [] HJ) as [c [E1 E2]]. cbn [put_entry ks_changes]. rewrite E1. cbn [obind].
  eexists. split; [reflexivity|]. conjs; auto.
  - apply KI_changes. apply (KI_put s i e); auto.
  - intros k'. cbn [set_changes put_entry ks_ent]. destruct HK as (N & _). rewrite (look_upd _ i e) by auto. reflexivity.
  - cbn [set_changes put_entry ks_ent]. eapply upd_keys; eauto.
Qed.

Fixpoint lastj (J : list jentry) (k : list Z) : option (list Z) :=
  match J with
  | [] => None
  | e :: t => match lastj t k with Some v => Some v | None => if keq k (je_key e) then Some (je_val e) else None end
  end.

Lemma lastj_snoc J e k : lastj (J ++ [e]) k = if keq k (je_key e) then Some (je_val e) else lastj J k.
Proof.
  induction J; simpl; [destruct (keq _ _); auto|]. rewrite IHJ. destruct (keq k (je_key e)); auto.
Qed.

Lemma lastj_in J k v : lastj J k = Some v -> In (mkJe k v) J.
Proof.
  induction J; simpl; [discriminate|]. destruct (lastj J k); [intros H; injection H as ->; auto|].
  destruct (keq k (je_key a)) as [->|]; [|discriminate]. intros H; injection H as <-. left. destruct a; auto.
Qed.

Lemma lastj_none J k : lastj J k = None -> forall e, In e J -> je_key e <> k.
Proof.
  induction J; simpl; [tauto|]. destruct (lastj J k); [discriminate|]. destruct (keq k (je_key a)) as [->|N]; [discriminate|].
  intros _ e [->|H]; auto.
Qed.

Definition Dirty (J : list jentry) : Prop := Exists (fun e => je_val e = []) J.
Definition Bused (B : kmap) (k : list Z) : option (option (list Z) * bool) := match B k with Some v => Some (Some v, false) | None => None end.
Definition Clean (B : kmap) (s : store) (J : list jentry) : Prop :=
  Forall (fun e => je_val e <> []) J /\
  forall k, look (ks_ent s) k = match lastj J k with Some v => Some (Some v, true) | None => Bused B k end.

(* invariant of a store between synchronisations; B: contents at the last synchronisation, m: contents now, J: journal *)
Definition LInv (V : list Z -> Prop) (B : kmap) (s : store) (m : kmap) (J : list jentry) : Prop :=
  KI s /\ ks_insync s = false /\ (forall k, seen (ks_ent s) k = m k) /\ (forall k v, m k = Some v -> V v) /\
  (forall k e, In e (ks_ent s) -> ke_key e = k -> KeyOk k) /\
  JRep (ks_changes s) J [] /\ Forall (fun e => KeyOk (je_key e)) J /\ Forall (fun e => je_val e = [] \/ V (je_val e)) J /\ (Dirty J \/ Clean B s J).

Lemma seen_look l k f k0 x : (forall k', look l k' = upd_look f k0 x k') -> seen l k = if keq k k0 then fst x else match f k with Some (v, _) => v | None => None end.
Proof. intros H. unfold seen. rewrite H. unfold upd_look. destruct (keq k k0); auto. Qed.

Lemma Dirty_app J e : Dirty J -> Dirty (J ++ [e]).
Proof. intros H. apply Exists_app. auto. Qed.

Lemma keys_from_look l : NoDup (map ke_key l) -> forall e, In e l -> exists x, look l (ke_key e) = Some x.
Proof. intros N e He. destruct (look l (ke_key e)) eqn:E; eauto. exfalso. apply look_none in E. apply E. now apply in_map. Qed.

Lemma look_some_in l k x : look l k = Some x -> exists e, In e l /\ ke_key e = k.
Proof.
  intros H. destruct (in_dec keq k (map ke_key l)) as [Hin|Hn].
  - apply in_map_iff in Hin. destruct Hin as [e [E1 E2]]. eauto.
  - apply look_none in Hn. congruence.
Qed.

Definition KeysOk (l : list kentry) : Prop := forall k e, In e l -> ke_key e = k -> KeyOk k.
Lemma KeysOk_upd l l' k x : KeysOk l -> KeyOk k -> NoDup (map ke_key l') -> (forall k', look l' k' = upd_look (look l) k x k') -> KeysOk l'.
Proof.
  intros H Hk N HL k' e He <-. destruct (keys_from_look l' N e He) as [y Hy]. rewrite HL in Hy. unfold upd_look in Hy. destruct (keq (ke_key e) k) as [->|]; auto.
  apply look_some_in in Hy. destruct Hy as [e' [E1 E2]]. rewrite <- E2. eapply H; eauto.
Qed.

Lemma set_LInv_exact V B s m J k v : PrefixFree V -> LInv V B s m J -> KeyOk k -> V v ->
  exists s' J', kvs_set s k v = Ok s' /\ ((m k = Some v /\ J' = J) \/ (m k <> Some v /\ J' = J ++ [mkJe k v])) /\ LInv V B s' (mput m k (Some v)) J'.
Proof.
  intros PF (H1 & H2 & H3 & H4 & H5 & H6 & H7 & H7' & H8) Hk Hv.
  assert (HV : forall k w, seen (ks_ent s) k = Some w -> V w) by (intros k0 w; rewrite H3; apply H4).
  destruct (kvs_set_spec V s k v J PF H1 H6 H2 HV Hv) as [[E1 E2]|[N [s' (E1 & E2 & E3 & E4 & E5)]]].
  - exists s, J. split; auto. split; [left; rewrite <- H3; auto|]. unfold LInv. conjs; auto.
    + intros k'. unfold mput. fold keq. destruct (keq k' k) as [->|]; auto.
    + intros k' w. unfold mput. fold keq. destruct (keq k' k) as [->|]; [intros E; injection E as <-; auto|apply H4].
  - exists s', (J ++ [mkJe k v]). split; auto. split; [right; rewrite <- H3; auto|]. unfold LInv. conjs; auto.
    + intros k'. rewrite (seen_look _ k' _ _ _ E5). unfold mput. fold keq. destruct (keq k' k); auto. apply H3.
    + intros k' w. unfold mput. fold keq. destruct (keq k' k) as [->|]; [intros E; injection E as <-; auto|apply H4].
    + eapply KeysOk_upd; eauto. apply E2.
    + apply Forall_app. split; auto.
    + apply Forall_app. split; auto.
    + destruct H8 as [H8|[H8 H9]]; [left; now apply Dirty_app|]. destruct v as [|x v].
      * left. apply Exists_app. right. constructor. reflexivity.
      * right. split; [apply Forall_app; split; auto; constructor; auto; discriminate|].
        intros k'. rewrite E5. unfold upd_look. rewrite lastj_snoc. simpl. destruct (keq k' k); auto.
Qed.

Lemma set_LInv V B s m J k v : PrefixFree V -> LInv V B s m J -> KeyOk k -> V v ->
  exists s' J', kvs_set s k v = Ok s' /\ LInv V B s' (mput m k (Some v)) J'.
Proof. intros PF H Hk Hv. destruct (set_LInv_exact V B s m J k v PF H Hk Hv) as [s' [J' (E1 & _ & E2)]]. exists s', J'. auto. Qed.

Lemma remove_LInv V B s m J i e : LInv V B s m J -> nth_error (ks_ent s) i = Some e ->
  exists s', remove_entry s i = Ok s' /\ LInv V B s' (mput m (ke_key e) None) (J ++ [mkJe (ke_key e) []]) /\ map ke_key (ks_ent s') = map ke_key (ks_ent s).
Proof.
  intros (H1 & H2 & H3 & H4 & H5 & H6 & H7 & H7' & H8) Hi.
  assert (Hk : KeyOk (ke_key e)) by (eapply H5; eauto; eapply nth_error_In; eauto).
  destruct (remove_entry_spec s i e J H1 H6 H2 Hi) as [s' (E1 & E2 & E3 & E4 & E5 & E6)].
  exists s'. split; auto. split; auto. unfold LInv. conjs; auto.
  - intros k'. rewrite (seen_look _ k' _ _ _ E5). unfold mput. fold keq. destruct (keq k' (ke_key e)); auto. apply H3.
  - intros k' w. unfold mput. fold keq. destruct (keq k' (ke_key e)) as [->|]; [discriminate|apply H4].
  - eapply KeysOk_upd; eauto. apply E2.
  - apply Forall_app. split; auto.
  - apply Forall_app. split; auto.
  - left. apply Exists_app. right. constructor. reflexivity.
Qed.

Lemma sort_LInv V B s m J q : is_qsort kvs_cmp q -> LInv V B s m J -> LInv V B (kvs_sort q s) m J.
Proof.
  intros Q (H1 & H2 & H3 & H4 & H5 & H6 & H7 & H7' & H8). destruct (Q (ks_ent s)) as [Q1 _].
  assert (L : forall k, look (q (ks_ent s)) k = look (ks_ent s) k) by (intros k; symmetry; apply look_perm; auto; apply H1).
  unfold LInv. conjs; auto.
  - now apply KI_sort.
  - intros k. cbn [kvs_sort ks_ent]. unfold seen. rewrite L. apply H3.
  - intros k e He. cbn [kvs_sort ks_ent] in He. apply H5. apply Permutation_in with (l := q (ks_ent s)); auto. now apply Permutation_sym.
  - destruct H8 as [H8|[H8 H9]]; [left; auto|right; split; auto]. intros k. cbn [kvs_sort ks_ent]. rewrite L. apply H9.
Qed.

Lemma LInv_ext V B s m m' J : (forall k, m k = m' k) -> LInv V B s m J -> LInv V B s m' J.
Proof.
  intros E (H1 & H2 & H3 & H4 & H5 & H6 & H7 & H7' & H8). unfold LInv. conjs; auto.
  - intros k. rewrite <- E. auto.
  - intros k v. rewrite <- E. apply H4.
Qed.

Lemma clean_LInv V B : forall n s m J a, LInv V B s m J -> (a + n = length (ks_ent s))%nat ->
  (forall i e, (i < a)%nat -> nth_error (ks_ent s) i = Some e -> ke_val e = None) ->
  exists s' X, ofold (fun s i => match nth_error (ks_ent s) i with
                    | Some e => match ke_val e with None => Ok s | Some _ => remove_entry s i end
                    | None => UB end) (seq a n) s = Ok s' /\ LInv V B s' (fun _ => None) (J ++ X).
Proof.
  induction n; intros s m J a HL Hl HI.
  - exists s, []. rewrite app_nil_r. split; auto. apply (LInv_ext _ _ _ m); auto. destruct HL as (H1 & H2 & H3 & _). intros k. rewrite <- H3. unfold seen.
    destruct (look (ks_ent s) k) as [[x u]|] eqn:E; auto. destruct (look_some_in _ _ _ E) as [e [He <-]]. apply In_nth_error in He. destruct He as [i He].
    rewrite (look_nth _ i e) in E by (auto; apply H1). injection E as <- <-. apply (HI i e); auto.
    assert (i < length (ks_ent s))%nat by (apply nth_error_Some; congruence). lia.
  - cbn [seq ofold]. destruct (nth_error (ks_ent s) a) as [e|] eqn:Ea; [|apply nth_error_None in Ea; lia].
    destruct (ke_val e) as [x|] eqn:Ev.
    + destruct (remove_LInv V B s m J a e HL Ea) as [s' (E1 & E2 & E3)]. rewrite E1. cbn [obind].
      assert (Len : length (ks_ent s') = length (ks_ent s)) by (rewrite <- (map_length ke_key), E3, map_length; auto).
      destruct (IHn s' (mput m (ke_key e) None) _ (S a) E2) as [s2 [X2 [F1 F2]]]; [lia| |exists s2; eexists; split; [exact F1|rewrite <- app_assoc in F2; exact F2]].
      intros i e' Hi He'. assert (X := E1). unfold remove_entry in X. rewrite Ea in X. destruct HL as (_ & Hn & _). rewrite Hn in X.
      apply obind_ok in X. destruct X as [c [_ X]]. injection X as <-. cbn [set_changes put_entry ks_ent] in He'.
      destruct (Nat.eq_dec a i) as [<-|N].
      * rewrite upd_nth_same in He' by (apply nth_error_Some; congruence). injection He' as <-. reflexivity.
      * rewrite upd_nth_other in He' by auto. apply (HI i e'); auto. lia.
    + cbn [obind]. apply (IHn s m J (S a) HL); [lia|]. intros i e' Hi He'. destruct (Nat.eq_dec i a) as [->|]; [congruence|]. apply (HI i e'); auto. lia.
Qed.

Lemma op_LInv V B q s m J o : PrefixFree V -> is_qsort kvs_cmp q -> LInv V B s m J -> OpOk V o ->
  exists s' X, exec_op q s o = Ok s' /\ LInv V B s' (map_op m o) (J ++ X) /\
    (forall k v, o = OSet k v -> m k <> Some v -> In (mkJe k v) X) /\ (forall k, o = ORemove k -> m k <> None -> In (mkJe k []) X).
Proof.
  intros PF Q HL HO. destruct o as [k v|k str|k| |]; simpl in *.
  - destruct HO as [HO1 HO2]. destruct (set_LInv_exact V B s m J k v PF HL HO1 HO2) as [s' [J' (E1 & [[E2 ->]|[E2 ->]] & E3)]].
    + exists s', []. rewrite app_nil_r. conjs; auto; [|discriminate]. intros k0 v0 X; injection X as <- <-. congruence.
    + exists s', [mkJe k v]. conjs; auto; [|discriminate]. intros k0 v0 X; injection X as <- <-. intros _. now left.
  - destruct HO as [HO1 HO2]. destruct (set_LInv_exact V B s m J k _ PF HL HO1 HO2) as [s' [J' (E1 & [[E2 ->]|[E2 ->]] & E3)]].
    + exists s', []. rewrite app_nil_r. conjs; auto; discriminate.
    + exists s', [mkJe k (str ++ [0])]. conjs; auto; discriminate.
  - unfold kvs_remove. destruct (kvs_entry_spec s k) as [r [-> R]]; [apply HL|]. cbn [obind]. destruct r as [i|].
    + destruct R as [e [E1 [E2 E3]]]. destruct (remove_LInv V B s m J i e HL E1) as [s' (F1 & F2 & F3)]. rewrite F1. simpl. rewrite E2 in F2.
      exists s', [mkJe k []]. conjs; auto; [discriminate|]. intros k0 X; injection X as <-. intros _. now left.
    + simpl. assert (M : m k = None) by (destruct HL as (_ & _ & H3 & _); rewrite <- H3; unfold seen; now rewrite R).
      exists s, []. rewrite app_nil_r. conjs; auto; [|discriminate|intros k0 X; injection X as <-; congruence].
      apply (LInv_ext _ _ _ m); auto. intros k'. unfold mput. fold keq. destruct (keq k' k) as [->|]; auto.
  - unfold kvs_clean. destruct (clean_LInv V B (length (ks_ent s)) s m J 0) as [s' [X [E1 E2]]]; auto; [intros; lia|]. exists s', X. conjs; auto; discriminate.
  - eexists. exists []. rewrite app_nil_r. split; [reflexivity|]. split; [now apply sort_LInv|]. split; discriminate.
Qed.

Lemma ops_app V B q h : PrefixFree V -> is_qsort kvs_cmp q -> forall s m J, LInv V B s m J -> Forall (OpOk V) h ->
  exists s' X, exec_ops q s h = Ok s' /\ LInv V B s' (fold_left map_op h m) (J ++ X) /\
   (forall h1 k v h2, h = h1 ++ OSet k v :: h2 -> fold_left map_op h1 m k <> Some v -> In (mkJe k v) X) /\
   (forall h1 k h2, h = h1 ++ ORemove k :: h2 -> fold_left map_op h1 m k <> None -> In (mkJe k []) X).
Proof.
  intros PF Q. unfold exec_ops. induction h as [|o h IH]; intros s m J HL HF; simpl.
  - exists s, []. rewrite app_nil_r. conjs; auto; intros [|? ?]; discriminate.
  - inversion HF; subst. destruct (op_LInv V B q s m J o PF Q HL H1) as [s1 [X1 (E1 & E2 & E3 & E4)]]. rewrite E1. cbn [obind].
    destruct (IH s1 _ _ E2 H2) as [s2 [X2 (F1 & F2 & F3 & F4)]]. exists s2, (X1 ++ X2). rewrite app_assoc. conjs; auto.
    + intros [|o' h1] k v h2 E; injection E as -> ->; intros Hm; apply in_or_app; [left; apply (E3 k v); auto|right; apply (F3 h1 k v h2); auto].
    + intros [|o' h1] k h2 E; injection E as -> ->; intros Hm; apply in_or_app; [left; apply (E4 k); auto|right; apply (F4 h1 k h2); auto].
Qed.

Lemma ops_LInv V B q h : PrefixFree V -> is_qsort kvs_cmp q -> forall s m J, LInv V B s m J -> Forall (OpOk V) h ->
  exists s' J', exec_ops q s h = Ok s' /\ LInv V B s' (fold_left map_op h m) J'.
Proof. intros PF Q s m J HL HF. destruct (ops_app V B q h PF Q s m J HL HF) as [s' [X (E1 & E2 & _)]]. eauto. Qed.

Lemma new_LInv V : exists s, kvs_new = Ok s /\ LInv V (fun _ => None) s (fun _ => None) [] /\ ks_ent s = [].
Proof.
  eexists. split; [reflexivity|]. split; [|reflexivity]. unfold LInv. conjs; auto; try (simpl; auto; fail).
  - unfold KI, used; simpl. conjs; try lia; constructor.
  - discriminate.
  - intros k e [].
  - unfold JRep, JSize, offused, dataused; simpl. change (10 / 2) with 5. conjs; auto; lia.
  - right. split; [constructor|]. reflexivity.
Qed.
