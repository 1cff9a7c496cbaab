(* Properties C41-C43 *)
From Coq Require Import ZArith List Bool Lia ZifyBool ZifyNat Sorted Permutation.
From Verif Require Import Base Model_RangeList Model_KVS Spec_RangeList Spec_KVS Proof_RangeList Proof_RangeList5 Proof_KVS Proof_KVS2 Proof_KVS3 Proof_KVS4 Proof_KVS5 Proof_KVS6
  Proof_KVS7 Proof_KVS8.
Import ListNotations.
Open Scope Z_scope.

(* insertion sort as qsort, for the examples *)
Lemma qk_ok : is_qsort kvs_cmp (isort kvs_cmp).
Proof.
  apply isort_is_qsort.
  - intros x y. unfold kvs_cmp. assert (A := str_cmp_anti (ke_key x) (ke_key y)). lia.
  - intros x y z H1 H2. unfold kvs_cmp in *. destruct (Z.eq_dec (str_cmp (ke_key x) (ke_key y)) 0) as [E|E]; [apply str_cmp_eq in E; rewrite E; auto|].
    destruct (Z.eq_dec (str_cmp (ke_key y) (ke_key z)) 0) as [E'|E']; [apply str_cmp_eq in E'; rewrite <- E'; auto|].
    assert (X : slt (ke_key x) (ke_key z)) by (apply str_cmp_trans with (b := ke_key y); lia). unfold slt in X. lia.
Qed.
Lemma qj_ok : is_qsort entrycmp (isort entrycmp).
Proof.
  apply isort_is_qsort.
  - intros x y. unfold entrycmp. assert (A := str_cmp_anti (je_key x) (je_key y)). lia.
  - intros x y z H1 H2. unfold entrycmp in *. destruct (Z.eq_dec (str_cmp (je_key x) (je_key y)) 0) as [E|E]; [apply str_cmp_eq in E; rewrite E; auto|].
    destruct (Z.eq_dec (str_cmp (je_key y) (je_key z)) 0) as [E'|E']; [apply str_cmp_eq in E'; rewrite <- E'; auto|].
    assert (X : slt (je_key x) (je_key z)) by (apply str_cmp_trans with (b := je_key y); lia). unfold slt in X. lia.
Qed.

(* ---------- C41: a store behaves as a map ---------- *)

Lemma history V q : PrefixFree V -> is_qsort kvs_cmp q -> forall h s m, SInv V s m -> Forall (StepOk V) h ->
  exists s', ofold (exec_step q) h s = Ok s' /\ SInv V s' (fold_left map_step h m).
Proof.
  intros PF Q. induction h as [|o h IH]; intros s m HS HF; simpl; [eauto|]. inversion HF; subst.
  assert (X : exists s1, exec_step q s o = Ok s1 /\ SInv V s1 (map_step m o)).
  { destruct o as [o|]; simpl; [now apply (op_SInv V q s m o)|]. destruct (sync_SInv V q s m Q HS) as [s1 (E1 & E2 & _)]. eauto. }
  destruct X as [s1 [-> E2]]. cbn [obind]. apply IH; auto.
Qed.

(* any history of operations and synchronisations (single backend) starting with a new store runs
   without failing, and afterwards laik_kvs_get returns for every key what a map would hold *)
Theorem C41_map : forall V q h s0, PrefixFree V -> is_qsort kvs_cmp q -> kvs_new = Ok s0 -> Forall (StepOk V) h ->
  exists s, ofold (exec_step q) h s0 = Ok s /\ forall k, kvs_get s k = Ok (fold_left map_step h (fun _ => None) k).
Proof.
  intros V q h s0 PF Q H0 HF. destruct (new_SInv V) as [s1 [E1 E2]]. rewrite E1 in H0. injection H0 as <-.
  destruct (history V q PF Q h s1 _ E2 HF) as [s [F1 F2]]. exists s. split; auto. intros k. destruct F2 as (K & _ & S & _). rewrite kvs_get_seen by auto. now rewrite S.
Qed.

(* enumeration: positions below the count hold distinct keys with the value laik_kvs_get returns, every key
   with a value is found, and directly after laik_kvs_sort keys are in ascending order *)
Theorem C41_iterate : forall V q h s0 s, PrefixFree V -> is_qsort kvs_cmp q -> kvs_new = Ok s0 -> Forall (StepOk V) h ->
  ofold (exec_step q) h s0 = Ok s ->
  (forall i, 0 <= i < kvs_count s -> exists k v, kvs_getn s i = Some (k, v) /\ kvs_get s k = Ok v) /\
  (forall i, kvs_count s <= i -> kvs_getn s i = None) /\
  (forall i j k v w, 0 <= i -> 0 <= j -> kvs_getn s i = Some (k, v) -> kvs_getn s j = Some (k, w) -> i = j) /\
  (forall k v, kvs_get s k = Ok (Some v) -> exists i, 0 <= i < kvs_count s /\ kvs_getn s i = Some (k, Some v)) /\
  (forall i j k1 k2 v1 v2, 0 <= i < j -> kvs_getn (kvs_sort q s) i = Some (k1, v1) -> kvs_getn (kvs_sort q s) j = Some (k2, v2) -> str_cmp k1 k2 < 0).
Proof.
  intros V q h s0 s PF Q H0 HF HE. destruct (new_SInv V) as [s1 [E1 E2]]. rewrite E1 in H0. injection H0 as <-.
  destruct (history V q PF Q h s1 _ E2 HF) as [s' [F1 F2]]. rewrite HE in F1. injection F1 as <-. clear HE E1 E2 s1.
  destruct F2 as (K & _). assert (KI s) as (N & _) by exact K. unfold kvs_getn, kvs_count, used. conjs.
  - intros i Hi. destruct (i >=? Z.of_nat (length (ks_ent s))) eqn:E; [lia|]. destruct (nth_error (ks_ent s) (Z.to_nat i)) as [e|] eqn:En; [|apply nth_error_None in En; lia].
    exists (ke_key e), (ke_val e). split; auto. rewrite kvs_get_seen by auto. unfold seen. rewrite (look_nth _ (Z.to_nat i) e); auto.
  - intros i Hi. destruct (i >=? Z.of_nat (length (ks_ent s))) eqn:E; auto. lia.
  - intros i j k v w Hi Hj. destruct (i >=? Z.of_nat (length (ks_ent s))) eqn:E; [discriminate|]. destruct (j >=? Z.of_nat (length (ks_ent s))) eqn:E'; [discriminate|].
    destruct (nth_error (ks_ent s) (Z.to_nat i)) as [e|] eqn:En; [|discriminate]. destruct (nth_error (ks_ent s) (Z.to_nat j)) as [e'|] eqn:En'; [|discriminate].
    intros X Y. injection X as <- <-. injection Y as Y1 Y2. apply Z2Nat.inj; auto. rewrite NoDup_nth_error in N. apply N; [rewrite map_length; lia|].
    rewrite !nth_error_map, En, En'. simpl. congruence.
  - intros k v. rewrite kvs_get_seen by auto. intros X. injection X as X. unfold seen in X. destruct (look (ks_ent s) k) as [[x u]|] eqn:El; [|discriminate]. subst x.
    destruct (look_some_in _ _ _ El) as [e [He <-]]. apply In_nth_error in He. destruct He as [n He]. rewrite (look_nth _ n e) in El by auto. injection El as El1 El2.
    assert (n < length (ks_ent s))%nat by (apply nth_error_Some; congruence). exists (Z.of_nat n). split; [lia|].
    destruct (_ >=? _) eqn:E; [lia|]. rewrite Nat2Z.id, He, El1. reflexivity.
  - intros i j k1 k2 v1 v2 Hij. assert (KS := KI_sort q s Q K). destruct KS as (_ & _ & S & _). unfold kvs_sort, used in *; cbn [ks_ent ks_sorted] in *.
    rewrite Nat2Z.id in S. assert (LP : length (ks_ent s) = length (q (ks_ent s))) by (apply Permutation_length, Q). rewrite LP, firstn_all in S.
    destruct (_ >=? _) eqn:E; [discriminate|]. destruct (j >=? _) eqn:E'; [discriminate|].
    destruct (nth_error (q (ks_ent s)) (Z.to_nat i)) as [e|] eqn:En; [|discriminate]. destruct (nth_error (q (ks_ent s)) (Z.to_nat j)) as [e'|] eqn:En'; [|discriminate].
    intros X Y. injection X as <- <-. injection Y as <- <-.
    assert (G : forall l a b x y, StronglySorted slt l -> (a < b)%nat -> nth_error l a = Some x -> nth_error l b = Some y -> slt x y).
    { clear. induction l as [|c l IH]; intros a b x y S Hab Ha Hb; [destruct a; discriminate|]. apply StronglySorted_inv in S. destruct S as [S1 S2].
      destruct b as [|b]; [lia|]. destruct a as [|a]; simpl in *.
      - injection Ha as <-. rewrite Forall_forall in S2. apply S2. eapply nth_error_In; eauto.
      - apply (IH a b); auto. lia. }
    apply (G _ (Z.to_nat i) (Z.to_nat j) _ _ S); [lia| |]; rewrite nth_error_map; [rewrite En|rewrite En']; reflexivity.
Qed.

(* C strings with their terminating zero (laik_kvs_sets) are such a class of values, so are values of one size *)
Theorem C41_strings : PrefixFree CString.
Proof.
  intros v w t [a [Ha ->]] [b [Hb ->]] E. rewrite <- app_assoc in E. simpl in E.
  revert b Hb E. induction a as [|x a IH]; intros b Hb E; destruct b as [|y b]; simpl in E.
  - injection E as <-. reflexivity.
  - injection E as -> E. exfalso. apply Hb. now left.
  - injection E as <- E. exfalso. apply Ha. now left.
  - injection E as -> E. apply (IH (fun X => Ha (or_intror X)) b); auto. intros X. apply Hb. now right.
Qed.
Theorem C41_blocks : forall n, PrefixFree (fun v => length v = n).
Proof. intros n v w t Hv Hw E. subst w. rewrite app_length in Hw. destruct t; auto. simpl in Hw. lia. Qed.

Lemma str_ok l : forallb (fun x => negb (x =? 0)) l = true -> CString (l ++ [0]).
Proof. intros Hl. exists l. split; auto. intros X. rewrite forallb_forall in Hl. specialize (Hl 0 X). discriminate. Qed.
Lemma key_ok l : forallb (fun x => negb (x =? 0)) l = true -> KeyOk l.
Proof. intros Hl X. rewrite forallb_forall in Hl. specialize (Hl 0 X). discriminate. Qed.
Definition ka : list Z := [97].
Definition kb : list Z := [98].
Definition xs0 : store := Eval vm_compute in match kvs_new with Ok s => s | _ => mkKvs 0 [] 0 changes_init false end.
Definition xhist : list kstep :=
  [SOp (OSets kb [1; 2]); SOp (OSets ka [3]); SSync; SOp (OSets kb [1; 5]); SOp (ORemove ka); SOp OSort; SOp (OSets ka [7]); SOp OClean; SSync; SOp (OSets kb [9])].
Example C41_example : Forall (StepOk CString) xhist /\ kvs_new = Ok xs0 /\
  exists s, ofold (exec_step (isort kvs_cmp)) xhist xs0 = Ok s /\ kvs_get s kb = Ok (Some [9; 0]) /\ kvs_get s ka = Ok None.
Proof.
  split; [|split; [reflexivity|]].
  - unfold xhist. repeat (apply Forall_cons; [first [exact I | now apply key_ok | split; [now apply key_ok|now apply str_ok]]|]). apply Forall_nil.
  - eexists. split; [vm_compute; reflexivity|]. vm_compute. auto.
Qed.

(* Refuted for arbitrary values: setting a value which is a proper prefix of the old one has no effect ... *)
Theorem C41_prefix_refuted : exists s1 s2, kvs_set xs0 ka [1; 2; 3] = Ok s1 /\ kvs_set s1 ka [1; 2] = Ok s2 /\ kvs_get s2 ka = Ok (Some [1; 2; 3]).
Proof. eexists; eexists. split; [vm_compute; reflexivity|]. split; [vm_compute; reflexivity|]. vm_compute. reflexivity. Qed.
(* ... setting a value which extends the old one reads behind the old value ... *)
Theorem C41_overread_refuted : exists s1, kvs_set xs0 ka [1; 2] = Ok s1 /\ kvs_set s1 ka [1; 2; 3] = UB.
Proof. eexists. split; vm_compute; reflexivity. Qed.
(* ... and a removed key is still counted and enumerated. *)
Theorem C41_removed_refuted : exists s1 s2, kvs_set xs0 ka [1] = Ok s1 /\ kvs_remove s1 ka = Ok (true, s2) /\
  kvs_get s2 ka = Ok None /\ kvs_count s2 = 1 /\ kvs_getn s2 0 = Some (ka, None) /\ exists s3, kvs_remove s2 ka = Ok (true, s3).
Proof. eexists; eexists. split; [vm_compute; reflexivity|]. split; [vm_compute; reflexivity|]. vm_compute. repeat split. eexists. reflexivity. Qed.

(* ---------- C42: synchronisation makes all stores agree (MPI backend) ---------- *)

(* after any number of rounds, all processes hold exactly the same entries at the same positions *)
Theorem C42_agree : forall V qj q n w s1 s2, PrefixFree V -> is_qsort entrycmp qj -> is_qsort kvs_cmp q -> World V qj q n w ->
  In s1 w -> In s2 w ->
  kvs_count s1 = kvs_count s2 /\ (forall i, kvs_getn s1 i = kvs_getn s2 i) /\ (forall k, kvs_get s1 k = kvs_get s2 k).
Proof.
  intros V qj q n w s1 s2 PF Qj Q HW H1 H2. destruct (World_ready V qj q n w Qj Q PF HW) as [B [_ [HR _]]]. rewrite Forall_forall in HR.
  assert (R1 := HR _ H1). assert (R2 := HR _ H2). assert (E := Ready_same V B s1 s2 R1 R2). unfold kvs_count, kvs_getn, used. rewrite E. conjs; auto.
  intros k. rewrite (kvs_get_seen s1), (kvs_get_seen s2) by (apply R1 || apply R2). now rewrite E.
Qed.

(* contents after a round: every change of every process is there, and all other keys are as before.
   In particular the round does not succeed if two processes changed a key to different values. *)
Theorem C42_result : forall V qj q n w ops w' B, PrefixFree V -> is_qsort entrycmp qj -> is_qsort kvs_cmp q -> World V qj q n w ->
  length ops = n -> Forall (Forall (OpOk V)) ops -> (forall s, In s w -> Holds s B) ->
  exec_round qj q w ops = Ok w' ->
  exists B', length w' = n /\ (forall s, In s w' -> Holds s B') /\
    (forall h k, In h ops -> fold_left map_op h B k <> B k -> B' k = fold_left map_op h B k) /\
    (forall k, (forall h, In h ops -> fold_left map_op h B k = B k) -> B' k = B k).
Proof.
  intros V qj q n w ops w' B PF Qj Q HW HL HO HB H.
  destruct (World_ready V qj q n w Qj Q PF HW) as [B0 [E1 [E2 E3]]].
  unfold exec_round in H. apply obind_ok in H. destruct H as [w1 [H1 H2]].
  assert (EL : length ops = length w) by lia.
  assert (HS := exec_all_ok V q B0 w ops w1 Q PF E2 EL HO H1).
  destruct (sync_main V qj q B0 w1 _ w' PF Qj Q E3 HS H2) as [B' (F1 & F2 & F3 & F4 & F5)].
  destruct w as [|s0 w].
  { simpl in E1. assert (Ew : w1 = []) by (unfold exec_all in H1; simpl in H1; congruence). subst w1. discriminate H2. }
  assert (BB : forall k, B0 k = B k).
  { intros k. assert (X := HB s0 (or_introl eq_refl) k). inversion E2 as [|? ? R0 _]; subst. rewrite kvs_get_seen in X by apply R0. injection X as X. rewrite <- X.
    destruct R0 as [(_ & _ & R & _) _]. now rewrite R. }
  assert (FB : forall h k, fold_left map_op h B0 k = fold_left map_op h B k).
  { intros h. assert (G : forall h m1 m2, (forall k, m1 k = m2 k) -> forall k, fold_left map_op h m1 k = fold_left map_op h m2 k).
    { clear. induction h as [|o h IH]; simpl; auto. intros m1 m2 H. apply IH. intros k. destruct o; simpl; unfold mput; auto; destruct (list_eq_dec _ _ _); auto. }
    apply G. exact BB. }
  exists B'. conjs.
  - rewrite F1. now rewrite (exec_all_length q _ ops w1 EL H1).
  - intros s Hs k. rewrite Forall_forall in F2. destruct (F2 s Hs) as [(K & _ & S & _) _]. rewrite kvs_get_seen by auto. now rewrite S.
  - intros h k Hh Hk. rewrite <- FB in *. apply (F3 k). { apply in_map_iff. exists h. auto. } now rewrite BB.
  - intros k Hk. rewrite <- BB. apply F4. intros m Hm. apply in_map_iff in Hm. destruct Hm as [h [<- Hh]]. rewrite FB, BB. auto.
Qed.

Theorem C42_conflict_detected : forall V qj q n w ops B h1 h2 k, PrefixFree V -> is_qsort entrycmp qj -> is_qsort kvs_cmp q -> World V qj q n w ->
  length ops = n -> Forall (Forall (OpOk V)) ops -> (forall s, In s w -> Holds s B) -> In h1 ops -> In h2 ops ->
  fold_left map_op h1 B k <> B k -> fold_left map_op h2 B k <> B k -> fold_left map_op h1 B k <> fold_left map_op h2 B k ->
  forall w', exec_round qj q w ops <> Ok w'.
Proof.
  intros V qj q n w ops B h1 h2 k PF Qj Q HW HL HO HB H1 H2 D1 D2 D12 w' H.
  destruct (C42_result V qj q n w ops w' B PF Qj Q HW HL HO HB H) as [B' (_ & _ & F3 & _)].
  apply D12. rewrite <- (F3 h1 k H1 D1). apply (F3 h2 k H2 D2).
Qed.

(* the order of the processes does not matter *)
Theorem C42_order : forall V qj q n w1 w2 ops1 ops2 w1' w2' B s1 s2, PrefixFree V -> is_qsort entrycmp qj -> is_qsort kvs_cmp q ->
  World V qj q n w1 -> World V qj q n w2 -> length ops1 = n -> length ops2 = n -> Forall (Forall (OpOk V)) ops1 -> Permutation ops1 ops2 ->
  (forall s, In s w1 -> Holds s B) -> (forall s, In s w2 -> Holds s B) ->
  exec_round qj q w1 ops1 = Ok w1' -> exec_round qj q w2 ops2 = Ok w2' -> In s1 w1' -> In s2 w2' ->
  kvs_count s1 = kvs_count s2 /\ (forall i, kvs_getn s1 i = kvs_getn s2 i) /\ (forall k, kvs_get s1 k = kvs_get s2 k).
Proof.
  intros V qj q n w1 w2 ops1 ops2 w1' w2' B s1 s2 PF Qj Q HW1 HW2 HL1 HL2 HO HP HB1 HB2 H1 H2 Hs1 Hs2.
  assert (HO2 : Forall (Forall (OpOk V)) ops2) by (rewrite Forall_forall in *; intros x Hx; apply HO; eapply Permutation_in; [apply Permutation_sym; exact HP|auto]).
  destruct (C42_result V qj q n w1 ops1 w1' B PF Qj Q HW1 HL1 HO HB1 H1) as [B1 (_ & A2 & A3 & A4)].
  destruct (C42_result V qj q n w2 ops2 w2' B PF Qj Q HW2 HL2 HO2 HB2 H2) as [B2 (_ & C2 & C3 & C4)].
  assert (E : forall k, B1 k = B2 k).
  { intros k. destruct (Forall_Exists_dec (fun h => fold_left map_op h B k = B k)) with (l := ops1) as [F|F].
    - intros h. destruct (fold_left map_op h B k) as [x|], (B k) as [y|]; try (right; congruence); [|left; auto].
      destruct (list_eq_dec Z.eq_dec x y); [left; congruence|right; congruence].
    - rewrite Forall_forall in F. rewrite A4, C4; auto. intros h Hh. apply F. eapply Permutation_in; [apply Permutation_sym; exact HP|auto].
    - apply Exists_exists in F. destruct F as [h [F1 F2]]. rewrite (A3 h k F1 F2), (C3 h k); auto. eapply Permutation_in; eauto. }
  destruct (World_ready V qj q n w1' Qj Q PF (World_round V qj q n w1 ops1 w1' HW1 HL1 HO H1)) as [D1 [_ [R1 _]]].
  destruct (World_ready V qj q n w2' Qj Q PF (World_round V qj q n w2 ops2 w2' HW2 HL2 HO2 H2)) as [D2 [_ [R2 _]]].
  rewrite Forall_forall in R1, R2. specialize (R1 _ Hs1). specialize (R2 _ Hs2).
  assert (G1 : forall k, D1 k = B1 k) by (intros k; assert (X := A2 s1 Hs1 k); rewrite kvs_get_seen in X by apply R1; injection X as X; rewrite <- X; destruct R1 as [(_ & _ & S & _) _]; now rewrite S).
  assert (G2 : forall k, D2 k = B2 k) by (intros k; assert (X := C2 s2 Hs2 k); rewrite kvs_get_seen in X by apply R2; injection X as X; rewrite <- X; destruct R2 as [(_ & _ & S & _) _]; now rewrite S).
  assert (X : ks_ent s1 = ks_ent s2).
  { destruct (Ready_keys V D1 s1 R1) as [S1 K1]. destruct (Ready_keys V D2 s2 R2) as [S2 K2]. apply ent_from_keys.
    - apply R1.
    - apply sorted_unique; auto. intros k. rewrite K1, K2, G1, G2, E. tauto.
    - intros k. rewrite (Ready_clean V D1 s1 R1), (Ready_clean V D2 s2 R2). unfold Bused. now rewrite G1, G2, E. }
  unfold kvs_count, kvs_getn, used. rewrite X. conjs; auto. intros k. rewrite (A2 s1 Hs1), (C2 s2 Hs2), E. reflexivity.
Qed.

(* rounds succeed if processes only set keys, each at most once and to non-empty values, without conflicts, and
   the real changes (L) have more than 2*|L|+1 bytes for keys and values *)
Theorem C42_total : forall V qj q n w B sets L, PrefixFree V -> is_qsort entrycmp qj -> is_qsort kvs_cmp q -> World V qj q n w -> w <> [] ->
  (forall s, In s w -> Holds s B) -> length sets = n ->
  (forall p k v, In p sets -> In (k, v) p -> KeyOk k /\ V v /\ v <> []) ->
  (forall p, In p sets -> NoDup (map fst p)) ->
  (forall p1 p2 k v1 v2, In p1 sets -> In p2 sets -> In (k, v1) p1 -> In (k, v2) p2 -> v1 = v2) ->
  NoDup L -> (forall k v, In (k, v) L <-> (exists p, In p sets /\ In (k, v) p) /\ B k <> Some v) ->
  2 * Z.of_nat (length L) + 1 < total (map change_bytes L) ->
  exists w', exec_round qj q w (map (map (fun c => OSet (fst c) (snd c))) sets) = Ok w'.
Proof.
  intros V qj q n w B sets L PF Qj Q HW Hne HB HL HV HN HC NL HLL Hb.
  destruct (World_ready V qj q n w Qj Q PF HW) as [B0 [E1 [E2 E3]]].
  assert (BB : forall k, B0 k = B k).
  { intros k. destruct w as [|s0 w]; [congruence|]. assert (X := HB s0 (or_introl eq_refl) k). inversion E2 as [|? ? R0 _]; subst. rewrite kvs_get_seen in X by apply R0. injection X as X. rewrite <- X.
    destruct R0 as [(_ & _ & R & _) _]. now rewrite R. }
  destruct (sets_all V q B0 w sets PF E2 ltac:(lia)) as [w1 [ms (S1 & S2 & S3 & S4)]].
  { rewrite Forall_forall. intros p Hp. rewrite Forall_forall. intros [k v] Hc. destruct (HV p k v Hp Hc) as (X1 & X2 & _). auto. }
  { rewrite Forall_forall. auto. }
  unfold exec_round. rewrite S1. cbn [obind].
  apply (sync_total V qj q B0 w1 ms (map (eff B0) sets) L); auto.
  - intros ->. destruct w; [congruence|discriminate S2].
  - intros J1 J2 [k1 v1] [k2 v2] H1 H2 X1 X2 E. simpl in *. subst k2. apply in_map_iff in H1. destruct H1 as [p1 [<- H1]]. apply in_map_iff in H2. destruct H2 as [p2 [<- H2]].
    apply eff_in in X1. apply eff_in in X2. apply (HC p1 p2 k1); auto; [apply X1|apply X2].
  - rewrite Forall_forall. intros J HJ. apply in_map_iff in HJ. destruct HJ as [p [<- Hp]]. apply eff_nodup. auto.
  - rewrite Forall_forall. intros J HJ. apply in_map_iff in HJ. destruct HJ as [p [<- Hp]]. rewrite Forall_forall. intros [k v] He. apply eff_in in He. simpl. apply (HV p k v Hp (proj1 He)).
  - intros k v. rewrite HLL, <- BB. split.
    + intros [[p [P1 P2]] P3]. exists (eff B0 p). split; [now apply in_map|]. apply eff_in. auto.
    + intros [J [J1 J2]]. apply in_map_iff in J1. destruct J1 as [p [<- J1]]. apply eff_in in J2. split; [|apply J2]. exists p. split; auto. apply J2.
Qed.

(* three processes, two rounds *)
Definition kc : list Z := [99; 100].
Definition xw0 : list store := [xs0; xs0; xs0].
Definition xops1 : list (list kop) := [[OSets ka [1; 2]]; [OSets kb [3]; OSets kc [5; 6]]; [OSets kb [3]]].
Definition xw1 : list store := Eval vm_compute in match exec_round (isort entrycmp) (isort kvs_cmp) xw0 xops1 with Ok l => l | _ => [] end.
Definition xops2 : list (list kop) := [[]; [OSets ka [7; 8; 9]]; [OSets kb [3]]].
Definition xw2 : list store := Eval vm_compute in match exec_round (isort entrycmp) (isort kvs_cmp) xw1 xops2 with Ok l => l | _ => [] end.
Lemma xops1_ok : Forall (Forall (OpOk CString)) xops1.
Proof. unfold xops1. repeat (apply Forall_nil || (split; [now apply key_ok|now apply str_ok]) || apply Forall_cons). Qed.
Lemma xops2_ok : Forall (Forall (OpOk CString)) xops2.
Proof. unfold xops2. repeat (apply Forall_nil || (split; [now apply key_ok|now apply str_ok]) || apply Forall_cons). Qed.
Example C42_example : World CString (isort entrycmp) (isort kvs_cmp) 3 xw2 /\ length xw2 = 3%nat /\
  forall s, In s xw2 -> kvs_count s = 3 /\ kvs_getn s 0 = Some (ka, Some [7; 8; 9; 0]) /\ kvs_getn s 1 = Some (kb, Some [3; 0]) /\ kvs_getn s 2 = Some (kc, Some [5; 6; 0]).
Proof.
  split; [|split; [reflexivity|]].
  - apply World_round with (w := xw1) (ops := xops2); [|reflexivity|exact xops2_ok|vm_compute; reflexivity].
    apply World_round with (w := xw0) (ops := xops1); [|reflexivity|exact xops1_ok|vm_compute; reflexivity].
    apply (World_new CString _ _ 3 xs0). reflexivity.
  - intros s [<-|[<-|[<-|[]]]]; vm_compute; auto.
Qed.
Example C42_conflict_example : exec_round (isort entrycmp) (isort kvs_cmp) xw0 [[OSets kb [1; 2; 3]]; [OSets kb [1; 2; 4]]; []] = Panic.
Proof. vm_compute. reflexivity. Qed.
Example C42_total_example : let sets := [[(ka, [1; 2; 3; 0])]; [(kb, [3; 0]); (ka, [1; 2; 3; 0])]; []] in
  let L := [(ka, [1; 2; 3; 0]); (kb, [3; 0])] in
  2 * Z.of_nat (length L) + 1 < total (map change_bytes L) /\ NoDup L /\
  exists w', exec_round (isort entrycmp) (isort kvs_cmp) xw0 (map (map (fun c => OSet (fst c) (snd c))) sets) = Ok w'.
Proof. split; [reflexivity|]. split; [repeat constructor; simpl; intuition discriminate|]. eexists. vm_compute. reflexivity. Qed.

(* ---------- C43: when synchronisation fails ---------- *)

(* Refuted: with the MPI backend synchronisation aborts if no process changed anything ... *)
Theorem C43_no_changes_refuted : exec_round (isort entrycmp) (isort kvs_cmp) xw0 [[]; []; []] = Abort /\
  exec_round (isort entrycmp) (isort kvs_cmp) xw2 [[]; []; []] = Abort.
Proof. vm_compute. auto. Qed.

Theorem C43_no_changes : forall V qj q n w w', PrefixFree V -> is_qsort entrycmp qj -> is_qsort kvs_cmp q -> World V qj q n w ->
  exec_round qj q w (repeat [] n) <> Ok w'.
Proof.
  intros V qj q n w w' PF Qj Q HW H. destruct (World_ready V qj q n w Qj Q PF HW) as [B0 [E1 [E2 E3]]].
  unfold exec_round in H. apply obind_ok in H. destruct H as [w1 [H1 H2]].
  assert (EL : length (repeat (@nil kop) n) = length w) by (rewrite repeat_length; auto).
  assert (HO : Forall (Forall (OpOk V)) (repeat [] n)) by (rewrite Forall_forall; intros x Hx; apply repeat_spec in Hx; subst; constructor).
  (* the stores are unchanged *)
  assert (Ew : w1 = w).
  { unfold exec_all in H1. destruct (collect_ok (fun p => exec_ops q (fst p) (snd p)) _ [] _ H1) as [r [E F]]. simpl in E. subst r.
    clear - E1 F. revert n E1 w1 F. induction w as [|s w IH]; intros n E1 w1 F; destruct n as [|n]; try discriminate E1; simpl in F; inversion F; subst; auto.
    simpl in H1. injection H1 as <-. f_equal. apply (IH n); auto. }
  subst w1. clear H1.
  assert (X : Forall2 (State V B0) w (repeat B0 (length w)) /\ Forall2 (fun sm J => LInv V B0 (fst sm) (snd sm) J) (combine w (repeat B0 (length w))) (repeat [] (length w))).
  { clear - E2. induction E2 as [|s w R E2 [I1 I2]]; simpl; split; constructor; auto; [exists []|]; apply R. }
  destruct X as [X1 X2]. destruct w as [|s0 w]; [discriminate H2|]. simpl in X1, X2. inversion X1 as [|? ? ? ? _ H4]; subst. inversion X2 as [|? ? ? ? H6 H8]; subst. simpl in H6.
  unfold kvs_sync_mpi in H2. apply obind_ok in H2. destruct H2 as [l1 [H _]]. cbn [map mpi_sync] in H.
  apply obind_ok in H. destruct H as [c0 [Hc0 H]]. cbn [sync_begin ks_changes] in Hc0.
  destruct (init_GInv qj B0 c0 [] V B0 s0 Qj H6 Hc0) as [G0 _].
  apply obind_ok in H. destruct H as [st [Hg H]].
  assert (G := gather_all qj Qj _ _ _ [[]] st G0 (Forall2_combine_sent V B0 w _ _ H4 H8) Hg).
  destruct st as [[[dst src] recvd] own]. destruct G as (U & ents & G1 & G2 & G3 & G4 & G5 & G6 & G7 & _). apply cassert_ok in H. destruct H as [H _].
  assert (U = []).
  { destruct U as [|e U]; auto. exfalso. destruct (G7 e (or_introl eq_refl)) as [J [HJ He]]. apply in_app_or in HJ. destruct HJ as [[<-|[]]|HJ]; [destruct He|].
    apply repeat_spec in HJ. subst J. destruct He. }
  subst U. destruct G1 as (_ & D & O & _). unfold dataused, offused in H. rewrite D, O in H. discriminate H.
Qed.

(* ... if a process removed a key which had a value ... *)
Theorem C43_removal : forall V qj q n w ops B h1 h2 k, PrefixFree V -> is_qsort entrycmp qj -> is_qsort kvs_cmp q -> World V qj q n w ->
  length ops = n -> Forall (Forall (OpOk V)) ops -> (forall s, In s w -> Holds s B) ->
  In (h1 ++ ORemove k :: h2) ops -> fold_left map_op h1 B k <> None -> forall w', exec_round qj q w ops <> Ok w'.
Proof.
  intros V qj q n w ops B h1 h2 k PF Qj Q HW HL HO HB Hin Hk w' H.
  destruct (World_ready V qj q n w Qj Q PF HW) as [B0 [E1 [E2 E3]]].
  unfold exec_round in H. apply obind_ok in H. destruct H as [w1 [H1 H2]].
  assert (EL : length ops = length w) by lia.
  destruct (exec_all_journal V q B0 w ops w1 Q PF E2 EL HO H1) as [Js (J1 & J2 & J3)].
  destruct (J3 _ Hin) as [J (X1 & _ & X3)].
  destruct (sync_single_changes V qj q B0 w1 _ Js w' PF Qj Q E3 J1 J2 H2 J X1) as [Y1 _]. rewrite Forall_forall in Y1.
  apply (Y1 (mkJe k [])); [|reflexivity]. apply (X3 h1 k h2); auto.
  replace (fold_left map_op h1 B0 k) with (fold_left map_op h1 B k); auto.
  destruct w as [|s0 w]; [destruct ops; [destruct Hin|discriminate EL]|].
  assert (BB : forall k, B k = B0 k).
  { intros k'. assert (X := HB s0 (or_introl eq_refl) k'). inversion E2 as [|? ? R0 _]; subst. rewrite kvs_get_seen in X by apply R0. injection X as X. rewrite <- X.
    destruct R0 as [(_ & _ & R & _) _]. now rewrite R. }
  clear - BB. revert B B0 BB k. induction h1 as [|o h IH]; simpl; auto. intros B B0 BB k. apply IH. intros k'. destruct o; simpl; unfold mput; auto; destruct (list_eq_dec _ _ _); auto.
Qed.

(* ... and if a process changed a key twice, to different values. *)
Theorem C43_twice : forall V qj q n w ops B h1 h2 h3 k v1 v2, PrefixFree V -> is_qsort entrycmp qj -> is_qsort kvs_cmp q -> World V qj q n w ->
  length ops = n -> Forall (Forall (OpOk V)) ops -> (forall s, In s w -> Holds s B) ->
  In (h1 ++ OSet k v1 :: h2 ++ OSet k v2 :: h3) ops -> v1 <> v2 ->
  fold_left map_op h1 B k <> Some v1 -> fold_left map_op (h1 ++ OSet k v1 :: h2) B k <> Some v2 -> forall w', exec_round qj q w ops <> Ok w'.
Proof.
  intros V qj q n w ops B h1 h2 h3 k v1 v2 PF Qj Q HW HL HO HB Hin Hv Hk1 Hk2 w' H.
  destruct (World_ready V qj q n w Qj Q PF HW) as [B0 [E1 [E2 E3]]].
  unfold exec_round in H. apply obind_ok in H. destruct H as [w1 [H1 H2]].
  assert (EL : length ops = length w) by lia.
  destruct w as [|s0 w]; [destruct ops; [destruct Hin|discriminate EL]|].
  assert (BB : forall k, B k = B0 k).
  { intros k'. assert (X := HB s0 (or_introl eq_refl) k'). inversion E2 as [|? ? R0 _]; subst. rewrite kvs_get_seen in X by apply R0. injection X as X. rewrite <- X.
    destruct R0 as [(_ & _ & R & _) _]. now rewrite R. }
  assert (FB : forall h k, fold_left map_op h B k = fold_left map_op h B0 k).
  { clear - BB. intros h. revert B B0 BB. induction h as [|o h IH]; simpl; auto. intros B B0 BB. apply IH. intros k'. destruct o; simpl; unfold mput; auto; destruct (list_eq_dec _ _ _); auto. }
  destruct (exec_all_journal V q B0 _ ops w1 Q PF E2 EL HO H1) as [Js (J1 & J2 & J3)].
  destruct (J3 _ Hin) as [J (X1 & X2 & _)].
  destruct (sync_single_changes V qj q B0 w1 _ Js w' PF Qj Q E3 J1 J2 H2 J X1) as [_ Y2].
  assert (Z : mkJe k v1 = mkJe k v2).
  { apply Y2; auto; [apply (X2 h1 k v1 (h2 ++ OSet k v2 :: h3))|apply (X2 (h1 ++ OSet k v1 :: h2) k v2 h3)]; try (rewrite <- FB; auto); auto. now rewrite <- app_assoc. }
  congruence.
Qed.

Example C43_removal_example : exec_round (isort entrycmp) (isort kvs_cmp) xw2 [[]; [ORemove kb]; []] = Abort.
Proof. vm_compute. reflexivity. Qed.
Example C43_twice_example : exec_round (isort entrycmp) (isort kvs_cmp) xw2 [[OSets ka [1; 1]; OSets ka [2; 2]]; []; []] = Panic /\
  exec_round (isort entrycmp) (isort kvs_cmp) xw2 [[]; [OSets ka [1; 1]; OSets ka [2; 2]]; []] = Abort.
Proof. vm_compute. auto. Qed.

(* ... and if there is only a single change with a key of one character and a value of one byte *)
Theorem C43_short_refuted : exec_round (isort entrycmp) (isort kvs_cmp) xw0 [[OSet ka [1]]; []; []] = Abort /\
  exists w', exec_round (isort entrycmp) (isort kvs_cmp) xw0 [[OSet ka [1; 2]]; []; []] = Ok w'.
Proof. split; [|eexists]; vm_compute; reflexivity. Qed.

(* With the single backend synchronisation is always possible and does not change the contents *)
Theorem C43_single : forall V q h s0 s, PrefixFree V -> is_qsort kvs_cmp q -> kvs_new = Ok s0 -> Forall (StepOk V) h ->
  ofold (exec_step q) h s0 = Ok s -> exists s', kvs_sync_single q s = Ok s' /\ forall k, kvs_get s' k = kvs_get s k.
Proof.
  intros V q h s0 s PF Q H0 HF HE. destruct (new_SInv V) as [s1 [E1 E2]]. rewrite E1 in H0. injection H0 as <-.
  destruct (history V q PF Q h s1 _ E2 HF) as [s' [F1 F2]]. rewrite HE in F1. injection F1 as <-.
  destruct (sync_SInv V q s _ Q F2) as [s2 (G1 & G2 & _)]. exists s2. split; auto. intros k.
  destruct F2 as (K1 & _ & S1 & _), G2 as (K2 & _ & S2 & _). rewrite !kvs_get_seen by auto. now rewrite S1, S2.
Qed.
Example C43_single_example : exists s s', ofold (exec_step (isort kvs_cmp)) (firstn 6 xhist) xs0 = Ok s /\ kvs_sync_single (isort kvs_cmp) s = Ok s' /\ kvs_get s' kb = Ok (Some [1; 5; 0]).
Proof. eexists; eexists. split; [vm_compute; reflexivity|]. split; [vm_compute; reflexivity|]. vm_compute. reflexivity. Qed.

Print Assumptions C41_map.
Print Assumptions C41_iterate.
Print Assumptions C41_strings.
Print Assumptions C41_blocks.
Print Assumptions C41_prefix_refuted.
Print Assumptions C41_overread_refuted.
Print Assumptions C41_removed_refuted.
Print Assumptions C42_agree.
Print Assumptions C42_result.
Print Assumptions C42_conflict_detected.
Print Assumptions C42_order.
Print Assumptions C42_total.
Print Assumptions C43_no_changes_refuted.
Print Assumptions C43_no_changes.
Print Assumptions C43_removal.
Print Assumptions C43_twice.
Print Assumptions C43_short_refuted.
Print Assumptions C43_single.
