(* Shared index spaces: synchronisation with callbacks; the space objects of a process agree with its store *)
From Coq Require Import ZArith List Bool Lia ZifyBool ZifyNat Sorted Permutation.
From Verif Require Import Base Model_RangeList Model_Space Model_KVS Spec_RangeList Spec_KVS Proof_RangeList5 Proof_KVS Proof_KVS2 Proof_KVS3 Proof_KVS4 Proof_KVS5 Proof_KVS6 Prop_KVS.
From Verif Require Import Model_SpaceStore Spec_SpaceStore Proof_SpaceStore Prop_SpaceStore Model_Location Proof_Location1 Proof_Location2 Proof_Location3.
From Verif Require Import Model_SpaceSync Spec_SpaceSync.
Import ListNotations.
Open Scope Z_scope.

(** a callback which succeeds for all changes *)
Section Callback.
  Context {U : Type}.
  Variable f : list Z -> list Z -> U -> outcome U.

  Lemma apply_cb_eq l : forall pre x, Forall (fun e => KeyOk (je_key e)) l -> Forall (fun e => je_val e <> []) l ->
    apply_loop_cb f (Z.of_nat (length pre) :: enc_off (Z.of_nat (length pre)) l) (pre ++ enc_data l) x =
    ofold (fun x e => kvs_set_cb f x (je_key e) (je_val e)) l x.
  Proof.
    induction l as [|e l IH]; intros pre s HK HV; [reflexivity|].
    inversion HK; subst. inversion HV; subst.
    change (enc_off (Z.of_nat (length pre)) (e :: l)) with
        ((Z.of_nat (length pre) + Z.of_nat (length (je_key e)) + 1) :: (Z.of_nat (length pre) + Z.of_nat (length (enc1 e))) :: enc_off (Z.of_nat (length pre) + Z.of_nat (length (enc1 e))) l).
    rewrite apply_loop_cb_step. cbn [ofold]. change (enc_data (e :: l)) with (enc1 e ++ enc_data l). assert (HL := enc1_length e).
    assert (length (je_val e) <> 0)%nat by (destruct (je_val e); simpl; congruence).
    assert (E2 : (Z.of_nat (length pre) + Z.of_nat (length (je_key e)) + 1 >? Z.of_nat (length pre)) = true) by lia. rewrite E2. cbn [cassert].
    assert (E3 : (Z.of_nat (length pre) + Z.of_nat (length (enc1 e)) >? Z.of_nat (length pre) + Z.of_nat (length (je_key e)) + 1) = true) by lia. rewrite E3. cbn [cassert].
    assert (Ek : cstr (skipn (Z.to_nat (Z.of_nat (length pre))) (pre ++ enc1 e ++ enc_data l)) = je_key e).
    { rewrite skipn_app_exact by lia. unfold enc1. rewrite <- app_assoc. apply cstr_app; auto. }
    assert (Ev : slice (pre ++ enc1 e ++ enc_data l) (Z.of_nat (length pre) + Z.of_nat (length (je_key e)) + 1) (Z.of_nat (length pre) + Z.of_nat (length (enc1 e))) = je_val e) by apply slice_val.
    rewrite Ek, Ev. destruct (kvs_set_cb f s (je_key e) (je_val e)); cbn [obind]; auto.
    specialize (IH (pre ++ enc1 e) a). rewrite !app_length, Nat2Z.inj_add in IH. rewrite <- app_assoc in IH. apply IH; auto.
  Qed.

  (* the changes in a journal *)
  Definition Has (c : journal) (l : list jentry) : Prop :=
    j_data c = enc_data l /\ j_off c = offs l /\ Forall (fun e => KeyOk (je_key e)) l /\ Forall (fun e => je_val e <> []) l.

  Lemma changes_cb_eq c l x : Has c l -> changes_apply_cb f c x = ofold (fun x e => kvs_set_cb f x (je_key e) (je_val e)) l x.
  Proof.
    intros (Hd & Ho & HK & HV). unfold changes_apply_cb, offused, dataused. rewrite Ho, Hd, offs_length. destruct l as [|e l]; [reflexivity|].
    destruct (_ =? 0) eqn:E0; [lia|]. rewrite Z.add_comm, Z.odd_add_mul_2. cbn [cassert Z.odd].
    assert (E1 : (0 <? Z.of_nat (length (enc_data (e :: l)))) = true) by (simpl; rewrite app_length; assert (HL := enc1_length e); lia).
    rewrite E1. cbn [cassert]. assert (F := apply_cb_eq (e :: l) [] x HK HV). exact F.
  Qed.
  Lemma changes_eq c l s : Has c l -> changes_apply c s = ofold (fun s e => kvs_set s (je_key e) (je_val e)) l s.
  Proof.
    intros (Hd & Ho & HK & HV). unfold changes_apply, offused, dataused. rewrite Ho, Hd, offs_length. destruct l as [|e l]; [reflexivity|].
    destruct (_ =? 0) eqn:E0; [lia|]. rewrite Z.add_comm, Z.odd_add_mul_2. cbn [cassert Z.odd].
    assert (E1 : (0 <? Z.of_nat (length (enc_data (e :: l)))) = true) by (simpl; rewrite app_length; assert (HL := enc1_length e); lia).
    rewrite E1. cbn [cassert]. assert (F := apply_eq (e :: l) [] s HK HV). exact F.
  Qed.
  Variable V : list Z -> Prop.
  Variable LI : store * U -> Prop.
  Hypothesis LI_changes : forall s u c, LI (s, u) -> LI (set_changes s c, u).
  Hypothesis LI_step : forall x k v s', LI x -> V v -> kvs_set (fst x) k v = Ok s' -> exists u', kvs_set_cb f x k v = Ok (s', u') /\ LI (s', u').

  Lemma fold_cb l : forall x s', LI x -> Forall (fun e => V (je_val e)) l -> ofold (fun s e => kvs_set s (je_key e) (je_val e)) l (fst x) = Ok s' ->
    exists u', ofold (fun x e => kvs_set_cb f x (je_key e) (je_val e)) l x = Ok (s', u') /\ LI (s', u').
  Proof.
    induction l as [|e l IH]; intros x s' HL HV E; cbn [ofold] in *.
    - injection E as <-. destruct x as [s u]. exists u. auto.
    - inversion HV; subst. apply obind_ok in E. destruct E as (s1 & E1 & E). destruct (LI_step x _ _ _ HL H1 E1) as (u1 & C1 & C2). rewrite C1. cbn [obind]. apply (IH (s1, u1)); auto.
  Qed.
  Lemma changes_ok c l x s' : Has c l -> Forall (fun e => V (je_val e)) l -> LI x -> changes_apply c (fst x) = Ok s' ->
    exists u', changes_apply_cb f c x = Ok (s', u') /\ LI (s', u').
  Proof. intros HH HV HL E. rewrite (changes_eq c l) in E by auto. rewrite (changes_cb_eq c l) by auto. apply fold_cb; auto. Qed.
  Lemma recv_cb_ok d l x s' : Has d l -> Forall (fun e => V (je_val e)) l -> LI x -> recv_merged d (fst x) = Ok s' ->
    exists u', recv_merged_cb f d x = Ok (s', u') /\ LI (s', u').
  Proof.
    intros HH HV HL E. unfold recv_merged in E. unfold recv_merged_cb. destruct (0 <? offused d).
    - destruct (0 <? dataused d); [|discriminate]. cbn [cassert] in *. apply obind_ok in E. destruct E as (c1 & E1 & E). apply obind_ok in E. destruct E as (c2 & E2 & E3).
      rewrite E1. cbn [obind]. rewrite E2. cbn [obind]. apply (changes_ok c2 l); auto; [|destruct x; now apply LI_changes].
      unfold set_size in E2. repeat (match type of E2 with cassert ?b _ = _ => destruct b; [cbn [cassert] in E2|discriminate] end). injection E2 as <-. exact HH.
    - destruct (dataused d =? 0); [|discriminate]. cbn [cassert] in *. injection E as <-. destruct x as [s u]. exists u. auto.
  Qed.
  Lemma recvs_ok d l0 : Has d l0 -> Forall (fun e => V (je_val e)) l0 -> forall l acc acc' r, Forall LI l -> map fst acc' = acc -> Forall LI acc' ->
    ofold (fun acc p => do p' <- recv_merged d p; Ok (acc ++ [p'])) (map fst l) acc = Ok r ->
    exists r', ofold (fun acc p => do p' <- recv_merged_cb f d p; Ok (acc ++ [p'])) l acc' = Ok r' /\ map fst r' = r /\ Forall LI r'.
  Proof.
    intros HH HV. induction l as [|x l IH]; intros acc acc' r HL Ea Ha E; cbn [map ofold] in E |- *.
    - injection E as <-. eauto.
    - inversion HL as [|? ? L1 L2]; subst. apply obind_ok in E. destruct E as (a1 & E1 & E). apply obind_ok in E1. destruct E1 as (p' & E1 & E2). injection E2 as <-.
      destruct (recv_cb_ok d l0 x p' HH HV L1 E1) as (u' & R1 & R2). rewrite R1. cbn [obind].
      eapply IH; [auto| |apply Forall_app; split; [exact Ha|constructor; [exact R2|constructor]]|exact E]. rewrite map_app. reflexivity.
  Qed.
  (* [D]: the merged journal has allowed values *)
  Definition GoodDst (q : list jentry -> list jentry) (l : list store) : Prop :=
    match l with [] => True | m :: others => forall c0 dst src rc own, changes_sort q (ks_changes m) = Ok c0 -> ofold (mpi_gather q) others (c0, changes_init, changes_init, true) = Ok (dst, src, rc, own) ->
      exists U, Has dst U /\ Forall (fun e => V (je_val e)) U end.
  Lemma mpi_cb_ok q l r : Forall LI l -> GoodDst q (map fst l) -> mpi_sync q (map fst l) = Ok r ->
    exists r', mpi_sync_cb f q l = Ok r' /\ map fst r' = r /\ Forall LI r'.
  Proof.
    intros HL HG E. destruct l as [|x l]; [discriminate E|]. unfold mpi_sync in E. unfold mpi_sync_cb. cbn [map GoodDst] in E, HG.
    inversion HL as [|? ? L1 L2]; subst.
    destruct (changes_sort q (ks_changes (fst x))) as [c0| | | |]; try discriminate. cbn [obind] in *.
    destruct (ofold (mpi_gather q) (map fst l) _) as [[[[dst src] rc] own]| | | |] eqn:Eg; try discriminate. cbn [obind] in *.
    destruct (HG c0 dst src rc own eq_refl Eg) as (W & HW & HWV).
    destruct (dataused dst >? offused dst); [|discriminate]. cbn [cassert] in *.
    apply obind_ok in E. destruct E as (m' & E1 & E). apply obind_ok in E. destruct E as (o' & E2 & E). injection E as <-.
    destruct (changes_ok dst W (set_changes (fst x) (if own : bool then dst else src), snd x) m') as (u' & A1 & A2); auto.
    { destruct x as [s u]. now apply LI_changes. }
    rewrite A1. cbn [obind]. destruct (recvs_ok dst W HW HWV l [] [] o' L2 eq_refl ltac:(constructor) E2) as (r' & B1 & B2 & B3). rewrite B1. cbn [obind].
    eexists. split; [reflexivity|]. cbn [map fst]. split; [congruence|]. constructor; auto.
  Qed.
End Callback.

(* the merged journal of stores between synchronisations *)
Lemma good_dst V qj B ws ms : is_qsort entrycmp qj -> Forall2 (State V B) ws ms -> GoodDst V qj (map sync_begin ws).
Proof.
  intros Qj HF. destruct HF as [|s0 m0 ws ms [J0 HL0] HF]; [exact Logic.I|]. intros c0 dst src rc own Hc0 Hg. cbn [map sync_begin ks_changes] in Hc0.
  destruct (init_GInv qj m0 c0 J0 V B s0 Qj HL0 Hc0) as [G0 _]. destruct (State_list V B ws ms HF) as [Js HJs].
  assert (G := gather_all qj Qj _ Js _ [J0] _ G0 (Forall2_combine_sent V B ws ms Js HF HJs) Hg).
  destruct G as (U & ents & G1 & G2 & G3 & G4 & G5 & G6 & G7 & G8 & G9). simpl app in *.
  exists U. split; [destruct G1 as (_ & D & O & _); unfold Has; auto|].
  assert (Hall : forall J, In J (J0 :: Js) -> exists s m, LInv V B s m J).
  { intros J [<-|HJ]; [exists s0, m0; auto|].
    clear - HJs HJ HF. revert Js HJs HJ. induction HF; intros Js HJs HJ; simpl in HJs; inversion HJs; subst; [destruct HJ|].
    destruct HJ as [<-|HJ]; [exists x, y; auto|]. eauto. }
  rewrite Forall_forall. intros e He. destruct (G7 e He) as [J [HJ He']]. destruct (Hall J HJ) as [s [m HLs]].
  destruct HLs as (_ & _ & _ & _ & _ & _ & _ & H7' & _). rewrite Forall_forall in H7', G6. destruct (H7' e He') as [X|X]; auto. exfalso. exact (G6 e He X).
Qed.

(** values of the space store *)
Definition VV (v : list Z) : Prop := exists s w, Space64 s /\ space_serialize s = Ok w /\ v = w ++ [0].
Lemma VV_string v : VV v -> CString v.
Proof. intros (s & w & H & E & ->). exists w. split; auto. eapply ser_nozero; eauto. Qed.
Lemma VV_pf : PrefixFree VV.
Proof.
  intros v w t Hv Hw E. apply VV_string in Hv. apply VV_string in Hw. destruct Hv as (a & Ha & ->), Hw as (b & Hb & ->).
  assert (X : cstr (b ++ [0]) = cstr ((a ++ [0]) ++ t)) by congruence. rewrite <- app_assoc in X. cbn [app] in X. rewrite !cstr_app in X by auto. subst b.
  apply (f_equal (@length Z)) in E. rewrite !app_length in E. destruct t; auto. simpl in E. lia.
Qed.
Lemma VV_ne v : VV v -> v <> [].
Proof. intros (s & w & _ & _ & ->). destruct w; discriminate. Qed.
Lemma ser_same s t : SameSpace s t -> space_serialize s = space_serialize t.
Proof.
  destruct s as [i d r [[f0 f1 f2] [t0 t1 t2]]], t as [i' d' r' [[f0' f1' f2'] [t0' t1' t2']]]. intros (D & (A1 & A2 & A3) & (B1 & B2 & B3)). cbn in *. subst.
  unfold space_serialize. cbn [so_dims so_box b_from b_to Model_Space.i0 Model_Space.i1 Model_Space.i2]. destruct d' as [|[|[|[|d']]]]; auto.
  - rewrite A2, B2 by lia. reflexivity.
  - rewrite A2, B2, A3, B3 by lia. reflexivity.
Qed.
Definition JunkOk (t : sobj) : Prop := Index64 (b_from (so_box t)) /\ Index64 (b_to (so_box t)).
Lemma parse_64 s v t : Space64 s -> space_serialize s = Ok v -> JunkOk t ->
  exists s', space_set t v = (true, s') /\ SameSpace s s' /\ Space64 s'.
Proof.
  intros Hs E Ht. destruct (C44_roundtrip s v t Hs E) as (s' & A & B & _). exists s'. split; auto. split; auto.
  assert (X : so_dims s' = 1%nat /\ i1 (b_from (so_box s')) = i1 (b_from (so_box t)) /\ i2 (b_from (so_box s')) = i2 (b_from (so_box t)) /\ i1 (b_to (so_box s')) = i1 (b_to (so_box t)) /\ i2 (b_to (so_box s')) = i2 (b_to (so_box t)) \/
              so_dims s' = 2%nat /\ i2 (b_from (so_box s')) = i2 (b_from (so_box t)) /\ i2 (b_to (so_box s')) = i2 (b_to (so_box t)) \/ so_dims s' = 3%nat).
  { unfold space_set in A. destruct v as [|c r]; [discriminate|]. destruct ((c <? 49) || (c >? 51)); [discriminate|].
    destruct (c - 48 =? 1); [injection A as _ <-; left; cbn; auto|]. destruct (c - 48 =? 2); [injection A as _ <-; right; left; cbn; auto|]. injection A as _ <-. right; right. reflexivity. }
  destruct Hs as (Hd & (F0 & F1 & F2) & (T0 & T1 & T2)), Ht as ((P0 & P1 & P2) & (Q0 & Q1 & Q2)), B as (D & (A0 & A1 & A2) & (B0 & B1 & B2)).
  unfold Space64, Index64. rewrite D in *. destruct X as [(X & X1 & X2 & X3 & X4)|[(X & X1 & X2)|X]]; rewrite X in *.
  - split; [auto|]. rewrite <- A0, <- B0, X1, X2, X3, X4. auto.
  - split; [auto|]. rewrite <- A0, <- B0, X1, X2, <- A1, <- B1 by lia. auto 10.
  - split; [auto|]. rewrite <- A0, <- B0, <- A1, <- B1, <- A2, <- B2 by lia. auto 10.
Qed.

(** the space objects agree with the store *)
Definition Enc (o : option sobj) (v : option (list Z)) : Prop :=
  match o, v with
  | None, None => True
  | Some s, Some v => Space64 s /\ exists w, space_serialize s = Ok w /\ v = w ++ [0]
  | _, _ => False
  end.
Lemma Enc_same o v o' v' : Enc o v -> Enc o' v' -> (SameOpt o o' <-> v = v').
Proof.
  destruct o as [s|], v as [x|], o' as [s'|], v' as [x'|]; cbn; try tauto; try (split; [tauto|discriminate]).
  intros (S1 & w & E1 & ->) (S2 & w' & E2 & ->). split.
  - intros H. rewrite (ser_same _ _ H) in E1. congruence.
  - intros [= H]. apply app_inj_tail in H. destruct H as [<- _]. eapply C44_distinct; eauto.
Qed.
Definition Obj (s : store) (u : sobjs) : Prop :=
  MemOk (sp_mem u) /\ forall k o, sp_obj u k = Some o -> Enc (Some o) (seen (ks_ent s) k).
Definition OI (x : store * sobjs) : Prop := KI (fst x) /\ (forall k v, seen (ks_ent (fst x)) k = Some v -> VV v) /\ Obj (fst x) (snd x).
Definition SLI (x : store * sobjs) : Prop := ks_insync (fst x) = true /\ OI x.

Lemma put_obj s s' u name o v : Obj s u -> Enc (Some o) (Some v) -> (forall k', seen (ks_ent s') k' = if keq k' name then Some v else seen (ks_ent s) k') -> Obj s' (sp_put u name o).
Proof.
  intros (M & O) HE HS. split; [exact M|]. intros k o'. cbn [sp_put sp_obj]. rewrite HS. unfold keq. destruct (list_eq_dec Z.eq_dec k name) as [->|]; [intros [= <-]; exact HE|apply O].
Qed.
Lemma update_ok s s' u k v : Obj s u -> VV v -> (forall k', seen (ks_ent s') k' = if keq k' k then Some v else seen (ks_ent s) k') ->
  exists u', update_space k v u = Ok u' /\ Obj s' u'.
Proof.
  intros HO (x & w & X1 & X2 & ->) HS. unfold update_space. rewrite cstr_app by (eapply ser_nozero; eauto).
  set (t := match sp_obj u k with Some s0 => s0 | None => _ end).
  assert (Ht : JunkOk t).
  { destruct HO as (M & O). unfold t. destruct (sp_obj u k) as [o|] eqn:E; [|apply (M k)]. specialize (O k o E). destruct (seen (ks_ent s) k); cbn in O; [|tauto]. destruct O as ((_ & O1 & O2) & _). split; auto. }
  destruct (parse_64 x w t X1 X2 Ht) as (o & P1 & P2 & P3). rewrite P1. cbn [cassert]. eexists. split; [reflexivity|].
  apply (put_obj s s' u k o (w ++ [0])); auto. cbn. split; auto. exists w. split; auto. rewrite <- X2. symmetry. now apply ser_same.
Qed.
Lemma sync_step x k v s' : SLI x -> VV v -> kvs_set (fst x) k v = Ok s' -> exists u', kvs_set_cb update_space x k v = Ok (s', u') /\ SLI (s', u').
Proof.
  intros (Hi & HK & HV & HO) Hv E. unfold kvs_set_cb. pose proof (set_sync (fst x) k v HK Hi) as H. rewrite E in H.
  destruct H as [(B & -> & _)|(B & H1 & H2 & H3)]; rewrite B; cbn [obind]; rewrite E; cbn [obind].
  - eexists. split; [reflexivity|]. unfold SLI, OI; auto.
  - destruct (update_ok _ s' (snd x) k v HO Hv H3) as (u' & Eu & HO'). rewrite Eu. cbn [obind]. eexists. split; [reflexivity|]. unfold SLI, OI. cbn [fst snd].
    split; auto. split; auto. split; auto. intros k' v'. rewrite H3. destruct (keq k' k); [intros [= <-]; auto|apply HV].
Qed.

Lemma ends_ok q : is_qsort kvs_cmp q -> forall l acc acc' w, Forall OI l -> Forall OI acc' -> map fst acc' = acc ->
  ofold (fun acc p => do p' <- sync_end q p; Ok (acc ++ [p'])) (map fst l) acc = Ok w ->
  exists l', ofold (fun acc p => do s <- sync_end q (fst p); Ok (acc ++ [(s, snd p)])) l acc' = Ok l' /\ map fst l' = w /\ Forall OI l'.
Proof.
  intros Q. induction l as [|x l IH]; intros acc acc' w HL HA Ea E; cbn [map ofold] in E |- *.
  - injection E as <-. eauto.
  - inversion HL as [|? ? (K & A & O) L2]; subst. apply obind_ok in E. destruct E as (a1 & E1 & E). apply obind_ok in E1. destruct E1 as (s' & E1 & E2). injection E2 as <-.
    rewrite E1. cbn [obind]. destruct (sync_end_seen q _ _ Q K E1) as (K' & S').
    eapply IH; [auto| | |exact E].
    + apply Forall_app. split; [exact HA|]. constructor; [|constructor]. split; [exact K'|]. cbn [fst snd]. split; [intros k v; rewrite S'; apply A|].
      destruct O as (O1 & O2). split; [exact O1|]. intros k o Ho. rewrite S'. auto.
    + rewrite map_app. reflexivity.
Qed.
(* if the stores can be synchronised, the callbacks succeed *)
Lemma sync_spaces_ok qj qk B l ms w : is_qsort entrycmp qj -> is_qsort kvs_cmp qk -> Forall2 (State VV B) (map fst l) ms -> Forall OI l ->
  kvs_sync_mpi qj qk (map fst l) = Ok w -> exists l', sync_spaces qj qk l = Ok l' /\ map fst l' = w /\ Forall OI l'.
Proof.
  intros Qj Qk HS HO E. assert (HG := good_dst VV qj B _ _ Qj HS). unfold kvs_sync_mpi in E. unfold sync_spaces, kvs_sync_mpi_cb. apply obind_ok in E. destruct E as (r & E1 & E2).
  set (lb := map (fun x => (sync_begin (fst x), snd x)) l).
  assert (Em : map sync_begin (map fst l) = map fst lb) by (unfold lb; rewrite !map_map; reflexivity). rewrite Em in *.
  assert (HB : Forall SLI lb).
  { unfold lb. clear - HO. induction HO as [|x l (K & A & O) H IH]; constructor; auto. split; [reflexivity|]. split; [exact K|]. split; [exact A|exact O]. }
  destruct (mpi_cb_ok update_space VV SLI ltac:(intros s u c H; exact H) sync_step qj lb r HB HG E1) as (r' & R1 & R2 & R3). rewrite R1. cbn [obind]. subst r.
  apply (ends_ok qk Qk r' [] [] w); auto. eapply Forall_impl; [|exact R3]. intros x (_ & A). exact A.
Qed.
