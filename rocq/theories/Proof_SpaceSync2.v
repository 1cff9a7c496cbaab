(* Shared index spaces: calls of a process, rounds *)
From Coq Require Import ZArith List Bool Lia ZifyBool ZifyNat Sorted Permutation.
From Verif Require Import Base Model_RangeList Model_Space Model_KVS Spec_RangeList Spec_KVS Proof_RangeList5 Proof_KVS Proof_KVS2 Proof_KVS3 Proof_KVS4 Proof_KVS5 Proof_KVS6 Prop_KVS.
From Verif Require Import Model_SpaceStore Spec_SpaceStore Proof_SpaceStore Prop_SpaceStore Model_Location Proof_Location1 Proof_Location2 Proof_Location3 Prop_Location.
From Verif Require Import Model_SpaceSync Spec_SpaceSync Proof_SpaceSync1.
Import ListNotations.
Open Scope Z_scope.

(* a process between synchronisations; B: contents of the store at the last synchronisation *)
Definition PIJ (B : kmap) (x : store * sobjs) (m : kmap) (J : list jentry) : Prop :=
  LInv VV B (fst x) m J /\ Forall (fun e => je_val e <> []) J /\ Obj (fst x) (snd x).

Lemma PIJ_OI B x m J : PIJ B x m J -> OI x.
Proof. intros ((H1 & _ & H3 & H4 & _) & _ & O). split; auto. split; auto. intros k v. rewrite H3. apply H4. Qed.

(* laik_spacestore_get *)
Lemma get_ok B x m J name : PIJ B x m J -> exists u' o, get_space name x = Ok ((fst x, u'), o) /\ Enc o (m name) /\ PIJ B (fst x, u') m J.
Proof.
  intros HP. assert (HP' := HP). destruct HP' as (HL & HJ & HO). destruct (LInv_clean _ _ _ _ _ HL HJ) as (_ & C).
  assert (HL' := HL). destruct HL' as (H1 & _ & H3 & H4 & _).
  unfold get_space. destruct (kvs_entry_spec (fst x) name H1) as (r & Er & R). rewrite Er. cbn [obind]. destruct r as [i|].
  - destruct R as (e & _ & _ & R).
    assert (X : exists v, m name = Some v).
    { rewrite <- H3. assert (C' := C name). unfold seen. rewrite R in *. destruct (lastj J name); [injection C' as -> _; eauto|].
      unfold Bused in C'. destruct (B name); [injection C' as -> _; eauto|discriminate]. }
    destruct X as (v & X). destruct (sp_obj (snd x) name) as [s|] eqn:Eo.
    + exists (snd x), (Some s). destruct x as [st u]. split; [reflexivity|]. split; auto. destruct HO as (_ & HO). specialize (HO name s Eo). rewrite H3 in HO. exact HO.
    + destruct (H4 _ _ X) as (o & w & O1 & O2 & ->).
      unfold spacestore_get. rewrite Er. cbn [obind]. rewrite kvs_get_seen, H3, X by auto. cbn [obind]. rewrite cstr_app by (eapply ser_nozero; eauto).
      destruct (parse_64 o w (new_space (fst (sp_mem (snd x) name)) (snd (sp_mem (snd x) name))) O1 O2 (proj1 HO name)) as (s' & P1 & P2 & P3). rewrite P1. cbn [cassert obind].
      assert (HE : Enc (Some s') (Some (w ++ [0]))).
      { cbn. split; auto. exists w. split; auto. rewrite <- O2. symmetry. now apply ser_same. }
      eexists. eexists. split; [reflexivity|]. split; [exact HE|]. split; [exact HL|]. split; [exact HJ|]. cbn [fst snd].
      apply (put_obj (fst x) (fst x) (snd x) name s' (w ++ [0]) HO HE). intros k'. destruct (keq k' name) as [->|]; auto. now rewrite H3.
  - exists (snd x), None. destruct x as [st u]. split; [reflexivity|]. split; [|exact HP]. cbn [fst] in *. rewrite <- H3. unfold seen. rewrite R. exact Logic.I.
Qed.

Lemma publish_ok B x m J name s w : PIJ B x m J -> KeyOk name -> Space64 s -> space_serialize s = Ok w ->
  exists st J', space_publish name s x = Ok (st, sp_put (snd x) name s) /\ kvs_set (fst x) name (w ++ [0]) = Ok st /\ PIJ B (st, sp_put (snd x) name s) (mput m name (Some (w ++ [0]))) J' /\
    ((m name = Some (w ++ [0]) /\ J' = J) \/ (m name <> Some (w ++ [0]) /\ J' = J ++ [mkJe name (w ++ [0])])).
Proof.
  intros (HL & HJ & HO) Hk Hs E. assert (Hv : VV (w ++ [0])) by (exists s, w; auto).
  destruct (set_LInv_exact VV B (fst x) m J name (w ++ [0]) VV_pf HL Hk Hv) as (st & J' & E1 & E2 & E3).
  exists st, J'. unfold space_publish, spacestore_set. rewrite E. cbn [obind]. rewrite E1. cbn [obind]. split; auto. split; auto. split; auto.
  split; [exact E3|]. split.
  - destruct E2 as [[_ ->]|[_ ->]]; auto. apply Forall_app. split; auto. constructor; [|constructor]. cbn. now apply VV_ne.
  - cbn [fst snd]. assert (S0 : forall k, seen (ks_ent (fst x)) k = m k) by apply HL. assert (S1 : forall k, seen (ks_ent st) k = mput m name (Some (w ++ [0])) k) by apply E3.
    apply (put_obj (fst x) st (snd x) name s (w ++ [0])); auto.
    + cbn. split; auto. exists w. auto.
    + intros k'. rewrite S1, S0. reflexivity.
Qed.

Lemma borders_64 d f t s : Space64 s -> Index64 f -> Index64 t -> Space64 (set_borders d f t s).
Proof.
  intros (D & (F0 & F1 & F2) & (T0 & T1 & T2)) (A0 & A1 & A2) (B0 & B1 & B2). unfold Space64, set_borders, set_index, Index64. cbn. split; auto.
  destruct d as [|[|[|d]]]; cbn; auto 10.
Qed.

Lemma exec_sp_ok B x m J o x' : PIJ B x m J -> SpOpOk o -> exec_sp x o = Ok x' ->
  exists h J', PIJ B x' (fold_left map_op h m) J' /\ Forall (OpOk VV) h.
Proof.
  intros HP HO E.
  assert (P : forall name s, KeyOk name -> Space64 s -> space_publish name s x = Ok x' -> exists h J', PIJ B x' (fold_left map_op h m) J' /\ Forall (OpOk VV) h).
  { intros name s Hk Hs Ep. assert (Ew : exists w, space_serialize s = Ok w).
    { unfold space_publish, spacestore_set in Ep. apply obind_ok in Ep. destruct Ep as (st & Ep & _). apply obind_ok in Ep. destruct Ep as (w & Ep & _). eauto. }
    destruct Ew as (w & Ew). destruct (publish_ok B x m J name s w HP Hk Hs Ew) as (st & J' & P1 & _ & P3 & _). rewrite P1 in Ep. injection Ep as <-.
    exists [OSet name (w ++ [0])], J'. split; [exact P3|]. constructor; [|constructor]. split; auto. exists s, w. auto. }
  destruct o as [name s|name d f t|name]; cbn [exec_sp SpOpOk] in *.
  - destruct HO. eapply P; eauto.
  - destruct HO as (Hk & Hf & Ht). unfold change_space in E. destruct (sp_obj (snd x) name) as [s|] eqn:Eo; [|discriminate].
    destruct (Nat.eqb (so_dims s) d); [|discriminate]. cbn [cassert] in E. destruct (same_borders d f t s).
    + injection E as <-. exists [], J. split; [exact HP|constructor].
    + assert (HS : Space64 s). { destruct HP as (_ & _ & _ & HO). specialize (HO _ _ Eo). destruct (seen _ name); cbn in HO; tauto. }
      eapply P; [exact Hk| |exact E]. apply borders_64; auto.
  - destruct (get_ok B x m J name HP) as (u' & o & G1 & _ & G2). rewrite G1 in E. cbn [obind fst] in E. injection E as <-. exists [], J. split; [exact G2|constructor].
Qed.
Lemma exec_sps_ok B ops : forall x m J x', PIJ B x m J -> Forall SpOpOk ops -> ofold exec_sp ops x = Ok x' ->
  exists m' J', PIJ B x' m' J'.
Proof.
  induction ops as [|o ops IH]; intros x m J x' HP HO E; cbn [ofold] in E.
  - injection E as <-. eauto.
  - inversion HO; subst. apply obind_ok in E. destruct E as (x1 & E1 & E). destruct (exec_sp_ok B x m J o x1 HP H1 E1) as (h & J' & HP' & _). eauto.
Qed.

(** all processes *)
Definition SpReady (B : kmap) (x : store * sobjs) : Prop := PIJ B x B [].
Lemma all_ok B w ops w1 : Forall (SpReady B) w -> length ops = length w -> Forall (Forall SpOpOk) ops -> exec_sps w ops = Ok w1 ->
  exists ms, Forall2 (fun x m => exists J, PIJ B x m J) w1 ms.
Proof.
  intros HR HL HO H. unfold exec_sps in H.
  destruct (collect_ok (fun p => ofold exec_sp (snd p) (fst p)) _ [] _ H) as [r [E F]]. simpl in E. subst r. clear H.
  revert ops HL HO w1 F. induction HR as [|s w HS HR IH]; intros ops HL HO w1 F; destruct ops as [|h ops]; simpl in *; try lia.
  - inversion F; subst. exists []. constructor.
  - inversion F as [|? s1 ? r1 E1 F']; subst. inversion HO; subst. destruct (IH ops ltac:(lia) H2 r1 F') as (ms & X).
    destruct (exec_sps_ok B h s B [] s1 HS H1 E1) as (m' & J' & P). exists (m' :: ms). constructor; eauto.
Qed.
Lemma exec_sps_length w ops w1 : length ops = length w -> exec_sps w ops = Ok w1 -> length w1 = length w.
Proof.
  intros HL H. destruct (collect_ok (fun p => ofold exec_sp (snd p) (fst p)) _ [] _ H) as [r [E F]]. simpl in E. subst r.
  apply F2_length in F. rewrite combine_length in F. lia.
Qed.
Lemma states B w ms : Forall2 (fun x m => exists J, PIJ B x m J) w ms -> Forall2 (State VV B) (map fst w) ms /\ Forall OI w.
Proof.
  induction 1 as [|x m w ms (J & HP) H [IH1 IH2]]; cbn [map]; split; constructor; auto.
  - exists J. apply HP.
  - eapply PIJ_OI; eauto.
Qed.

Lemma LInv_ready_B B : forall w, w <> [] -> Forall (SpReady B) w -> forall k v, B k = Some v -> VV v.
Proof. intros [|x w] Hne H; [congruence|]. inversion H as [|? ? ((_ & _ & _ & H4 & _) & _) _]; subst. exact H4. Qed.

Lemma sync_cb_iff qj qk B w1 ms w' : is_qsort entrycmp qj -> is_qsort kvs_cmp qk -> Forall2 (State VV B) (map fst w1) ms -> Forall OI w1 ->
  sync_spaces qj qk w1 = Ok w' -> kvs_sync_mpi qj qk (map fst w1) = Ok (map fst w') /\ Forall OI w'.
Proof.
  intros Qj Qk HS HO E. assert (X : kvs_sync_mpi qj qk (map fst w1) = Ok (map fst w')) by (eapply sync_cb_fst; exact E). split; auto.
  destruct (sync_spaces_ok qj qk B w1 ms _ Qj Qk HS HO X) as (l' & E1 & E2 & E3). rewrite E in E1. injection E1 as <-. exact E3.
Qed.

Lemma ready_of B' w' : Forall (fun s => LInv VV B' s B' [] /\ ks_sorted s = used s) (map fst w') -> Forall OI w' -> Forall (SpReady B') w'.
Proof.
  intros H HO. rewrite Forall_map in H. rewrite Forall_forall in *. intros x Hx. destruct (H x Hx) as (H1 & _). destruct (HO x Hx) as (_ & _ & O). split; [exact H1|]. split; [constructor|exact O].
Qed.

(* one round *)
Lemma round_ok qj qk B w1 ms w' : is_qsort entrycmp qj -> is_qsort kvs_cmp qk -> (forall k v, B k = Some v -> VV v) ->
  Forall2 (fun x m => exists J, PIJ B x m J) w1 ms -> sync_spaces qj qk w1 = Ok w' ->
  exists B', length w' = length w1 /\ Forall (SpReady B') w' /\ (forall k v, B' k = Some v -> VV v) /\
    (forall k m, In m ms -> m k <> B k -> B' k = m k) /\ (forall k, (forall m, In m ms -> m k = B k) -> B' k = B k).
Proof.
  intros Qj Qk HB HF E. destruct (states B w1 ms HF) as (HS & HO). destruct (sync_cb_iff qj qk B w1 ms w' Qj Qk HS HO E) as (E1 & E2).
  destruct (sync_main VV qj qk B (map fst w1) ms (map fst w') VV_pf Qj Qk HB HS E1) as (B' & R1 & R2 & R3 & R4 & R5).
  rewrite !map_length in R1. exists B'. split; auto. split; [now apply ready_of|]. auto.
Qed.

Lemma SpWorld_ready qj qk n w : is_qsort entrycmp qj -> is_qsort kvs_cmp qk -> SpWorld qj qk n w ->
  exists B, length w = n /\ Forall (SpReady B) w /\ (forall k v, B k = Some v -> VV v).
Proof.
  intros Qj Qk H. induction H as [s mems Hs HL HM|w ops w1 w' HW IH HL HO E1 E2].
  - exists (fun _ => None). rewrite map_length. split; auto. split; [|discriminate]. destruct (new_LInv VV) as (s' & N1 & N2 & N3). rewrite Hs in N1. injection N1 as <-.
    rewrite Forall_map. eapply Forall_impl; [|exact HM]. intros m Hm. split; [exact N2|]. split; [constructor|]. split; [exact Hm|]. cbn. discriminate.
  - destruct IH as (B & I1 & I2 & I3). destruct (all_ok B w ops w1 I2 ltac:(lia) HO E1) as (ms & F).
    destruct (round_ok qj qk B w1 ms w' Qj Qk I3 F E2) as (B' & R1 & R2 & R3 & _). exists B'. split; [|auto]. rewrite R1. rewrite (exec_sps_length w ops w1); [lia|lia|exact E1].
Qed.
