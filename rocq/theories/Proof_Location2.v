(* Location strings with the MPI backend: all processes learn the strings of all *)
From Coq Require Import ZArith List Bool Lia ZifyBool ZifyNat Sorted Permutation.
From Verif Require Import Base Model_RangeList Model_KVS Spec_RangeList Spec_KVS Proof_RangeList5 Proof_KVS Proof_KVS2 Proof_KVS3 Proof_KVS4 Proof_KVS5 Proof_KVS6 Prop_KVS.
From Verif Require Import Model_SpaceStore Spec_SpaceStore Proof_SpaceStore Model_Tcp2 Proof_Tcp2 Proof_Tcp3 Model_Tcp2Sync Model_Location Proof_Location1.
Import ListNotations.
Open Scope Z_scope.

Lemma key_ok l : 0 <= l < 10 ^ 9 -> KeyOk (locationkey l).
Proof.
  intros H. rewrite key_print by auto. intros Hc. assert (F := print_dec_range l ltac:(lia)). rewrite Forall_forall in F. specialize (F _ Hc). lia.
Qed.
Lemma key_len l : 0 <= l < 10 ^ 9 -> (1 <= length (locationkey l))%nat.
Proof.
  intros H. rewrite key_print by auto. unfold print_dec. replace (l <? 0) with false by lia.
  destruct (print_nat_head (S (Z.to_nat (Z.log2 l))) l ltac:(lia) ltac:(lia)) as (c & t & -> & _). simpl. lia.
Qed.

Lemma sync_end_seen q s s' : is_qsort kvs_cmp q -> KI s -> sync_end q s = Ok s' -> KI s' /\ forall k, seen (ks_ent s') k = seen (ks_ent s) k.
Proof.
  intros Q HK E. unfold sync_end in E. apply obind_ok in E. destruct E as (c & _ & E). injection E as <-.
  set (s3 := mkKvs (ks_size s) (map (fun e => mkKe (ke_key e) (ke_val e) false) (ks_ent s)) (ks_sorted s) c false).
  assert (K3 : KI s3).
  { destruct HK as (N & B1 & S & P1 & P2). unfold KI, s3, used in *; cbn [ks_ent ks_sorted ks_size]. rewrite map_length, map_map. cbn [ke_key]. conjs; auto; try lia.
    rewrite firstn_map, map_map. cbn [ke_key]. auto. }
  split; [apply KI_sort; auto|]. intros k. unfold seen, kvs_sort. cbn [ks_ent]. destruct (Q (ks_ent s3)) as [Q1 _].
  rewrite <- (look_perm _ _ k Q1) by apply K3. unfold s3. cbn [ks_ent]. fold clearu. rewrite look_clear. destruct (look (ks_ent s) k) as [[v u]|]; auto.
Qed.

Section Mpi.
  Variable n : Z.
  Hypothesis Hn : 0 <= n <= 10 ^ 9.
  Definition LA (x : store * locs) : Prop := KI (fst x) /\ Agree n (fst x) (snd x).

  Lemma end_all q : is_qsort kvs_cmp q -> forall l acc acc' w, Forall LA l -> Forall LA acc' -> map fst acc' = acc ->
    ofold (fun acc p => do p' <- sync_end q p; Ok (acc ++ [p'])) (map fst l) acc = Ok w ->
    exists l', ofold (fun acc p => do s <- sync_end q (fst p); Ok (acc ++ [(s, snd p)])) l acc' = Ok l' /\ map fst l' = w /\ Forall LA l'.
  Proof.
    intros Q. induction l as [|x l IH]; intros acc acc' w HL HA Ea E; cbn [map ofold] in E |- *.
    - injection E as <-. eauto.
    - inversion HL as [|? ? (K & A) L2]; subst. apply obind_ok in E. destruct E as (a1 & E1 & E). apply obind_ok in E1. destruct E1 as (s' & E1 & E2). injection E2 as <-.
      rewrite E1. cbn [obind]. destruct (sync_end_seen q _ _ Q K E1) as (K' & S').
      eapply IH; [auto| | |exact E].
      + apply Forall_app. split; [exact HA|]. constructor; [|constructor]. split; [exact K'|]. destruct A as (A1 & A2 & A3). split; [exact A1|]. split; [exact A2|]. intros l0 Hl0. cbn [fst snd]. rewrite S'. auto.
      + rewrite map_app. reflexivity.
  Qed.
  Lemma end_keys q : is_qsort kvs_cmp q -> forall l w, Forall KI l -> Forall2 (fun p p' => sync_end q p = Ok p') l w -> Forall (Keys n) w -> Forall (Keys n) l.
  Proof.
    intros Q l w HK F. revert HK. induction F as [|s s' l w E F IH]; intros HK HW; constructor.
    - inversion HK; inversion HW; subst. destruct (sync_end_seen q s s' Q ltac:(auto) E) as (_ & S). intros k Hk. rewrite <- S in Hk. auto.
    - inversion HK; inversion HW; subst. auto.
  Qed.
  Lemma sync_KI q l r : Forall KI l -> Forall (fun s => ks_insync s = true) l -> mpi_sync q l = Ok r -> Forall KI r.
  Proof.
    intros HL HI E. destruct l as [|x l]; [discriminate E|]. unfold mpi_sync in E. inversion HL as [|? ? L1 L2]; inversion HI as [|? ? I1 I2]; subst.
    destruct (changes_sort q (ks_changes x)) as [c0| | | |]; try discriminate. cbn [obind] in *.
    destruct (ofold (mpi_gather q) l _) as [[[[dst src] rc] own]| | | |]; try discriminate. cbn [obind] in *.
    destruct (dataused dst >? offused dst); [|discriminate]. cbn [cassert] in *.
    assert (G : forall c s s', KI s -> ks_insync s = true -> changes_apply c s = Ok s' -> KI s').
    { intros c s s' K J H. unfold changes_apply in H. destruct (offused c =? 0); [injection H as <-; auto|]. destruct (Z.odd (offused c)); [|discriminate].
      destruct (0 <? dataused c); [|discriminate]. cbn [cassert] in H. eapply (apply_keys (j_data c) (length (j_off c))); eauto. }
    apply obind_ok in E. destruct E as (m' & E1 & E). apply obind_ok in E. destruct E as (o' & E2 & E). injection E as <-. constructor.
    - eapply G; [| |exact E1]; auto.
    - destruct (collect_ok (recv_merged dst) _ _ _ E2) as (o2 & -> & F). clear E2 HL HI E1. cbn [app]. revert L2 I2. induction F as [|s s' l o E F IH]; intros L2 I2; constructor.
      + inversion L2; inversion I2; subst. unfold recv_merged in E. destruct (0 <? offused dst).
        * destruct (0 <? dataused dst); [|discriminate]. cbn [cassert] in *. apply obind_ok in E. destruct E as (c1 & E1 & E). apply obind_ok in E. destruct E as (c2 & E2 & E3).
          eapply G; [| |exact E3]; auto.
        * destruct (dataused dst =? 0); [|discriminate]. cbn [cassert] in *. injection E as <-. auto.
      + inversion L2; inversion I2; subst. auto.
  Qed.

  Lemma sync_cb qj qk l w : is_qsort kvs_cmp qk -> Forall LA l -> kvs_sync_mpi qj qk (map fst l) = Ok w -> Forall (Keys n) w ->
    exists l', kvs_sync_mpi_cb update_location qj qk l = Ok l' /\ map fst l' = w /\ Forall LA l'.
  Proof.
    intros Q HL E HK. unfold kvs_sync_mpi in E. unfold kvs_sync_mpi_cb. apply obind_ok in E. destruct E as (r & E1 & E2).
    set (lb := map (fun x => (sync_begin (fst x), snd x)) l).
    assert (Em : map sync_begin (map fst l) = map fst lb) by (unfold lb; rewrite !map_map; reflexivity). rewrite Em in E1.
    assert (HB : Forall (LI n) lb).
    { unfold lb. clear - HL. induction HL as [|x l (K & A) H IH]; constructor; auto. split; [exact K|]. split; [reflexivity|]. exact A. }
    assert (KR : Forall KI r).
    { eapply sync_KI; [| |exact E1]; rewrite Forall_map; eapply Forall_impl; try exact HB; intros x (K & J & _); auto. }
    destruct (collect_ok (sync_end qk) _ _ _ E2) as (w2 & Ew & F). cbn [app] in Ew. subst w2.
    destruct (mpi_sync_ok n Hn qj lb r HB E1 (end_keys qk Q r w KR F HK)) as (r' & R1 & R2 & R3). rewrite R1. cbn [obind]. subst r.
    apply (end_all qk Q r' [] [] w); auto. eapply Forall_impl; [|exact R3]. intros x (K & _ & A). split; auto.
  Qed.

  (** one call *)
  Variable qj : list jentry -> list jentry.
  Variable qk : list kentry -> list kentry.
  Hypothesis Qj : is_qsort entrycmp qj.
  Hypothesis Qk : is_qsort kvs_cmp qk.
  Definition StrOk (s : list Z) : Prop := ~ In 0 s /\ s <> [].
  Definition kv (p : Z * list Z) : list Z * list Z := (locationkey (fst p), snd p ++ [0]).

  Lemma cs str : ~ In 0 str -> CString (str ++ [0]).
  Proof. intros H. exists str. auto. Qed.
  Lemma first_set p s0 : kvs_new = Ok s0 -> 0 <= fst p < n -> ~ In 0 (snd p) ->
    exists s u, (do x <- loc_create n None; loc_set (fst p) (snd p) x) = Ok (s, u) /\ exec_ops qk s0 [OSet (fst (kv p)) (snd (kv p))] = Ok s /\ LA (s, u).
  Proof.
    intros H0 Hp Hs. destruct p as [lid my]. cbn [fst snd kv] in *. destruct (new_LInv CString) as (s1 & E1 & E2 & _). rewrite E1 in H0. injection H0 as ->.
    destruct (ops_LInv CString (fun _ => None) qk [OSet (locationkey lid) (my ++ [0])] C41_strings Qk s0 _ [] E2) as (s & J & F1 & F2).
    { constructor; [|constructor]. split; [apply key_ok; lia|apply cs; auto]. }
    unfold loc_create. rewrite E1. cbn [obind]. unfold loc_set. cbn [fst snd]. unfold put_loc. cbn [lo_size]. replace ((0 <=? lid) && (lid <? n)) with true by lia. cbn [obind].
    assert (Es : kvs_sets s0 (locationkey lid) my = Ok s).
    { unfold kvs_sets. unfold exec_ops in F1. cbn [ofold exec_op] in F1. destruct (kvs_set s0 _ _); cbn [obind] in F1; congruence. }
    rewrite Es. cbn [obind]. do 2 eexists. split; [reflexivity|]. split; [exact F1|]. destruct F2 as (K & _ & S & _). split; [exact K|].
    split; [reflexivity|]. split; [reflexivity|]. intros l Hl. cbn [fst snd lo_loc]. rewrite S. cbn [fold_left map_op]. unfold mput.
    destruct (Z.eqb_spec l lid) as [->|Nl].
    - destruct (list_eq_dec Z.eq_dec (locationkey lid) (locationkey lid)); [|congruence]. simpl. now rewrite cstr_app.
    - destruct (list_eq_dec Z.eq_dec (locationkey l) (locationkey lid)) as [E|_]; [apply key_inj in E; lia|]. reflexivity.
  Qed.
  Definition setops (ps : list (Z * list Z)) : list (list kop) := map (fun p => [OSet (fst (kv p)) (snd (kv p))]) ps.
  Lemma first_all s0 : kvs_new = Ok s0 -> forall ps acc acc', Forall (fun p => 0 <= fst p < n /\ ~ In 0 (snd p)) ps -> Forall LA acc' -> map fst acc' = acc ->
    exists l, ofold (fun acc p => do x <- loc_create n (snd p); do x' <- loc_set (fst (fst p)) (snd (fst p)) x; Ok (acc ++ [x'])) (combine ps (repeat None (length ps))) acc' = Ok l /\
      ofold (fun acc p => do s <- exec_ops qk (fst p) (snd p); Ok (acc ++ [s])) (combine (repeat s0 (length ps)) (setops ps)) acc = Ok (map fst l) /\ Forall LA l.
  Proof.
    intros H0. induction ps as [|p ps IH]; intros acc acc' Hp HA Ea; cbn [length repeat setops map combine ofold].
    - exists acc'. subst. auto.
    - inversion Hp as [|? ? (P1 & P2) P3]; subst. destruct (first_set p s0 H0 P1 P2) as (s & u & F1 & F2 & F3). cbn [fst snd] in *.
      destruct (loc_create n None) as [x| | | |]; try discriminate F1. cbn [obind] in *. rewrite F1, F2. cbn [obind]. apply IH; auto.
      + apply Forall_app. split; auto.
      + rewrite map_app. reflexivity.
  Qed.

  Lemma bytes_ok ps : Forall (fun p => 0 <= fst p < n /\ StrOk (snd p)) ps -> 4 * Z.of_nat (length ps) <= Spec_KVS.total (map change_bytes (map kv ps)).
  Proof.
    intros H. induction H as [|p ps ((A & B) & (_ & C)) H IH]; [simpl; lia|]. cbn [map length Spec_KVS.total fold_right] in *. unfold change_bytes at 1, kv at 1 2. cbn [fst snd].
    rewrite app_length. cbn [length]. assert (D := key_len (fst p) ltac:(lia)). destruct (snd p) as [|c t]; [congruence|]. cbn [length]. fold (Spec_KVS.total (map change_bytes (map kv ps))). lia.
  Qed.

  Lemma kv_nodup ps : NoDup (map fst ps) -> Forall (fun p => 0 <= fst p < n) ps -> NoDup (map kv ps).
  Proof.
    induction ps as [|p ps IH]; cbn [map]; intros H F; [constructor|]. inversion H; inversion F; subst. constructor; auto. intros Hi. apply in_map_iff in Hi. destruct Hi as (p' & E & Hi).
    unfold kv in E. injection E as E _. rewrite Forall_forall in *. assert (0 <= fst p' < n) by auto. apply key_inj in E; try lia. apply H2. rewrite <- E. apply in_map. auto.
  Qed.

  Lemma fst_inj (ps : list (Z * list Z)) a b : NoDup (map fst ps) -> In a ps -> In b ps -> fst a = fst b -> a = b.
  Proof.
    induction ps as [|c t IH]; [intros _ []|]. cbn [map]. intros ND [->|H1] [->|H2] E; auto; inversion ND as [|? ? N1 N2]; subst; auto.
    - exfalso. apply N1. rewrite E. apply in_map. auto.
    - exfalso. apply N1. rewrite <- E. apply in_map. auto.
  Qed.
  Theorem mpi_first ps : ps <> [] -> NoDup (map fst ps) -> Forall (fun p => 0 <= fst p < n /\ StrOk (snd p)) ps ->
    exists l, sync_location_mpi qj qk n ps (repeat None (length ps)) = Ok l /\ length l = length ps /\ Forall LA l /\
      World CString qj qk (length ps) (map fst l) /\
      exists B', (forall s, In s (map fst l) -> Holds s B') /\ (forall p, In p ps -> B' (fst (kv p)) = Some (snd (kv p))) /\
        forall k, (forall p, In p ps -> k <> fst (kv p)) -> B' k = None.
  Proof.
    intros Hne ND HP. destruct (new_LInv CString) as (s0 & H0 & HI & _).
    assert (HP1 : Forall (fun p => 0 <= fst p < n) ps) by (eapply Forall_impl; [|exact HP]; tauto).
    assert (HP2 : Forall (fun p => 0 <= fst p < n /\ ~ In 0 (snd p)) ps) by (eapply Forall_impl; [|exact HP]; intros p (A & B & _); auto).
    destruct (first_all s0 H0 ps [] [] HP2 ltac:(constructor) eq_refl) as (l1 & L1 & L2 & L3).
    assert (HW := World_new CString qj qk (length ps) s0 H0).
    assert (HB : forall s, In s (repeat s0 (length ps)) -> Holds s (fun _ => None)).
    { intros s Hs. apply repeat_spec in Hs. subst s. intros k. destruct HI as (K & _ & S & _). rewrite kvs_get_seen by auto. now rewrite S. }
    set (sets := map (fun p => [kv p]) ps).
    assert (Eops : setops ps = map (map (fun c => OSet (fst c) (snd c))) sets) by (unfold sets, setops; rewrite map_map; reflexivity).
    rewrite Forall_forall in HP, HP1, HP2.
    assert (HO : Forall (Forall (OpOk CString)) (setops ps)).
    { apply Forall_forall. intros h Hh. apply in_map_iff in Hh. destruct Hh as (p & <- & Hp). constructor; [|constructor]. destruct (HP2 p Hp) as (A & B). split; [apply key_ok; lia|apply cs; auto]. }
    destruct (C42_total CString qj qk (length ps) (repeat s0 (length ps)) (fun _ => None) sets (map kv ps) C41_strings Qj Qk HW) as (w & Ew); auto.
    - destruct ps; [congruence|discriminate].
    - unfold sets. apply map_length.
    - intros p k v Hp Hk. unfold sets in Hp. apply in_map_iff in Hp. destruct Hp as (p' & <- & Hp). destruct Hk as [Hk|[]]. unfold kv in Hk. injection Hk as <- <-. destruct (HP2 p' Hp) as (A & B).
      split; [apply key_ok; lia|]. split; [apply cs; auto|]. destruct (snd p'); discriminate.
    - intros p Hp. unfold sets in Hp. apply in_map_iff in Hp. destruct Hp as (p' & <- & Hp). repeat constructor. intros [].
    - intros p1 p2 k v1 v2 H1 H2 K1 K2. unfold sets in H1, H2. apply in_map_iff in H1, H2. destruct H1 as (a & <- & H1). destruct H2 as (b & <- & H2). destruct K1 as [K1|[]]. destruct K2 as [K2|[]].
      unfold kv in K1, K2. injection K1 as <- <-. injection K2 as K2 <-. apply key_inj in K2; [|specialize (HP1 _ H2); lia|specialize (HP1 _ H1); lia].
      rewrite (fst_inj ps a b ND H1 H2 ltac:(congruence)). auto.
    - apply kv_nodup; auto. apply Forall_forall. auto.
    - intros k v. split.
      + intros Hk. apply in_map_iff in Hk. destruct Hk as (p & E & Hp). split; [|discriminate]. exists [kv p]. split; [unfold sets; apply in_map_iff; eauto|left; auto].
      + intros ((p & Hp & Hk) & _). unfold sets in Hp. apply in_map_iff in Hp. destruct Hp as (p' & <- & Hp). destruct Hk as [<-|[]]. apply in_map. auto.
    - rewrite map_length. assert (X := bytes_ok ps ltac:(apply Forall_forall; auto)). destruct ps as [|p0 pr]; [congruence|]. cbn [length] in *. lia.
    - rewrite <- Eops in Ew.
      destruct (C42_result CString qj qk (length ps) (repeat s0 (length ps)) (setops ps) w (fun _ => None) C41_strings Qj Qk HW) as (B' & R1 & R2 & R3 & R4); auto.
      { unfold setops. apply map_length. }
      assert (B1 : forall p, In p ps -> B' (fst (kv p)) = Some (snd (kv p))).
      { intros p Hp. assert (E : fold_left map_op [OSet (fst (kv p)) (snd (kv p))] (fun _ => None) (fst (kv p)) = Some (snd (kv p))).
        { cbn [fold_left map_op]. unfold mput. destruct (list_eq_dec Z.eq_dec (fst (kv p)) (fst (kv p))); congruence. }
        rewrite (R3 [OSet (fst (kv p)) (snd (kv p))] (fst (kv p))); [exact E| |rewrite E; discriminate]. unfold setops. apply in_map_iff. eauto. }
      assert (B2 : forall k, (forall p, In p ps -> k <> fst (kv p)) -> B' k = None).
      { intros k Hk. rewrite R4; auto. intros h Hh. unfold setops in Hh. apply in_map_iff in Hh. destruct Hh as (p & <- & Hp). cbn [fold_left map_op]. unfold mput.
        destruct (list_eq_dec Z.eq_dec k (fst (kv p))); auto. exfalso. exact (Hk p Hp e). }
      unfold exec_round in Ew. unfold exec_all in Ew. rewrite L2 in Ew. cbn [obind] in Ew.
      assert (HWr : World CString qj qk (length ps) w).
      { apply (World_round CString qj qk (length ps) (repeat s0 (length ps)) (setops ps) w); [exact HW|unfold setops; apply map_length|exact HO|]. unfold exec_round, exec_all. rewrite L2. cbn [obind]. exact Ew. }
      destruct (World_ready CString qj qk (length ps) w Qj Qk C41_strings HWr) as (B0 & _ & RD & _). rewrite Forall_forall in RD.
      assert (HK : Forall (Keys n) w).
      { apply Forall_forall. intros s Hs k Hk. assert (G := R2 s Hs k). rewrite kvs_get_seen in G by apply (RD s Hs). injection G as G. rewrite G in Hk.
        destruct (in_dec (list_eq_dec Z.eq_dec) k (map (fun p => fst (kv p)) ps)) as [Hi|Hi].
        - apply in_map_iff in Hi. destruct Hi as (p & <- & Hp). exists (fst p). split; auto.
        - exfalso. apply Hk. apply B2. intros p Hp ->. apply Hi. apply in_map_iff. eauto. }
      destruct (sync_cb qj qk l1 w Qk L3 Ew HK) as (l & S1 & S2 & S3). exists l. unfold sync_location_mpi. unfold linst in *. rewrite L1. cbn [obind]. split; [exact S1|].
      split; [rewrite <- R1, <- S2, map_length; auto|]. split; [exact S3|]. rewrite S2. split; [exact HWr|]. exists B'. auto.
  Qed.
End Mpi.
