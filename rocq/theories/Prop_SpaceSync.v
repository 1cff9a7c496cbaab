(* C61: shared index spaces (laik_spacestore_set, laik_spacestore_get, laik_change_space_1d/2d/3d, laik_sync_spaces) *)
From Coq Require Import ZArith List Bool Lia ZifyBool ZifyNat Sorted Permutation.
From Verif Require Import Base Model_RangeList Model_Space Model_KVS Spec_RangeList Spec_KVS Proof_RangeList5 Proof_KVS Proof_KVS2 Proof_KVS3 Proof_KVS4 Proof_KVS5 Proof_KVS6 Prop_KVS.
From Verif Require Import Model_SpaceStore Spec_SpaceStore Proof_SpaceStore Prop_SpaceStore Model_Location Prop_Location.
From Verif Require Import Model_SpaceSync Spec_SpaceSync Proof_SpaceSync1 Proof_SpaceSync2.
Import ListNotations.
Open Scope Z_scope.

Lemma gets_enc B x m J name o : PIJ B x m J -> Gets x name o -> Enc o (m name).
Proof. intros HP (x' & E). destruct (get_ok B x m J name HP) as (u' & o' & E1 & E2 & _). rewrite E in E1. injection E1 as _ <-. exact E2. Qed.
Lemma gets_ex B x m J name : PIJ B x m J -> exists o, Gets x name o /\ Enc o (m name).
Proof. intros HP. destruct (get_ok B x m J name HP) as (u' & o & E1 & E2 & _). exists o. split; auto. exists (fst x, u'). exact E1. Qed.
Lemma F2_nth {A B} (R : A -> B -> Prop) l r i x : Forall2 R l r -> nth_error l i = Some x -> exists y, nth_error r i = Some y /\ R x y.
Proof. intros H. revert i. induction H; intros [|i] E; cbn in *; try discriminate; [injection E as <-; eauto|eauto]. Qed.
Lemma enc_some m s : Enc (Some s) m -> exists v, m = Some v.
Proof. destruct m; cbn; [eauto|tauto]. Qed.
Lemma same_sym o o' : SameOpt o o' -> SameOpt o' o.
Proof.
  destruct o as [s|], o' as [t|]; cbn; auto. unfold SameSpace, same_to. intros (D & (A1 & A2 & A3) & (B1 & B2 & B3)). rewrite D in *.
  split; [auto|]. split; (split; [congruence|]); split; intros; symmetry; auto.
Qed.

(* After any number of rounds, getting a space never fails, and all processes get the same index space for a name,
   or all get none *)
Theorem C61_agree : forall qj q n w name, is_qsort entrycmp qj -> is_qsort kvs_cmp q -> SpWorld qj q n w ->
  (forall x, In x w -> exists o, Gets x name o) /\
  (forall x y o o', In x w -> In y w -> Gets x name o -> Gets y name o' -> SameOpt o o').
Proof.
  intros qj q n w name Qj Q HW. destruct (SpWorld_ready qj q n w Qj Q HW) as (B & _ & HR & _). rewrite Forall_forall in HR. split.
  - intros x Hx. destruct (gets_ex B x B [] name (HR x Hx)) as (o & G & _). eauto.
  - intros x y o o' Hx Hy Gx Gy. apply (Enc_same o (B name) o' (B name)); auto; eapply gets_enc; eauto; apply HR; auto.
Qed.

(* If a process has another space for a name after its calls of the round than before (it published or changed it),
   all processes get this space after the synchronisation *)
Theorem C61_change : forall qj q n w ops w1 w' i x x1 name o s, is_qsort entrycmp qj -> is_qsort kvs_cmp q ->
  SpWorld qj q n w -> length ops = n -> Forall (Forall SpOpOk) ops -> exec_sps w ops = Ok w1 -> sync_spaces qj q w1 = Ok w' ->
  nth_error w i = Some x -> nth_error w1 i = Some x1 -> Gets x name o -> Gets x1 name (Some s) -> ~ SameOpt o (Some s) ->
  forall y, In y w' -> exists s', Gets y name (Some s') /\ SameSpace s s'.
Proof.
  intros qj q n w ops w1 w' i x x1 name o s Qj Q HW HL HO E1 E2 Hx Hx1 Go Gs HN y Hy.
  destruct (SpWorld_ready qj q n w Qj Q HW) as (B & I1 & I2 & I3). destruct (all_ok B w ops w1 I2 ltac:(lia) HO E1) as (ms & F).
  destruct (round_ok qj q B w1 ms w' Qj Q I3 F E2) as (B' & R1 & R2 & R3 & R4 & R5).
  destruct (F2_nth _ _ _ _ _ F Hx1) as (m & Hm & J & HP). rewrite Forall_forall in I2, R2.
  assert (X1 := gets_enc _ _ _ _ _ _ (I2 x (nth_error_In _ _ Hx)) Go). assert (X2 := gets_enc _ _ _ _ _ _ HP Gs).
  assert (N : m name <> B name) by (intros X; apply HN; apply (Enc_same o (B name) (Some s) (m name)); auto).
  destruct (gets_ex B' y B' [] name (R2 y Hy)) as (o' & G & X3). rewrite (R4 name m (nth_error_In _ _ Hm) N) in X3.
  assert (X := proj2 (Enc_same (Some s) _ o' _ X2 X3) eq_refl). destruct o' as [s'|]; [|destruct X]. exists s'. split; auto.
Qed.

(* ... and if no process has another space for a name, this stays so *)
Theorem C61_unchanged : forall qj q n w ops w1 w' name, is_qsort entrycmp qj -> is_qsort kvs_cmp q ->
  SpWorld qj q n w -> length ops = n -> Forall (Forall SpOpOk) ops -> exec_sps w ops = Ok w1 -> sync_spaces qj q w1 = Ok w' ->
  (forall i x x1 o o1, nth_error w i = Some x -> nth_error w1 i = Some x1 -> Gets x name o -> Gets x1 name o1 -> SameOpt o o1) ->
  forall x y o o', In x w -> In y w' -> Gets x name o -> Gets y name o' -> SameOpt o o'.
Proof.
  intros qj q n w ops w1 w' name Qj Q HW HL HO E1 E2 HN x y o o' Hx Hy Go Go'.
  destruct (SpWorld_ready qj q n w Qj Q HW) as (B & I1 & I2 & I3). destruct (all_ok B w ops w1 I2 ltac:(lia) HO E1) as (ms & F).
  destruct (round_ok qj q B w1 ms w' Qj Q I3 F E2) as (B' & R1 & R2 & R3 & R4 & R5). rewrite Forall_forall in I2, R2.
  assert (L := exec_sps_length w ops w1 ltac:(lia) E1).
  assert (X : B' name = B name).
  { apply R5. intros m Hm. destruct (In_nth_error _ _ Hm) as (i & Hi).
    assert (Li : (i < length ms)%nat) by (apply nth_error_Some; congruence). assert (Lm := F2_length _ _ _ F).
    destruct (nth_error w1 i) as [x1|] eqn:Hx1; [|apply nth_error_None in Hx1; lia]. destruct (nth_error w i) as [x0|] eqn:Hx0; [|apply nth_error_None in Hx0; lia].
    destruct (F2_nth _ _ _ _ _ F Hx1) as (m' & Hm' & J & HP). rewrite Hi in Hm'. injection Hm' as <-.
    assert (P0 := I2 x0 (nth_error_In _ _ Hx0)). destruct (gets_ex _ _ _ _ name P0) as (o0 & G0 & N0). destruct (gets_ex _ _ _ _ name HP) as (o1 & G1 & N1).
    symmetry. apply (Enc_same o0 _ o1 _ N0 N1). eapply HN; eauto. }
  apply (Enc_same o (B name) o' (B' name)); auto; eapply gets_enc; eauto; apply I2 || apply R2; auto.
Qed.

(* Two processes changing a space differently: the synchronisation does not succeed *)
Theorem C61_conflict : forall qj q n w ops w1 i1 i2 x1 x2 y1 y2 name o1 o2 s1 s2, is_qsort entrycmp qj -> is_qsort kvs_cmp q ->
  SpWorld qj q n w -> length ops = n -> Forall (Forall SpOpOk) ops -> exec_sps w ops = Ok w1 ->
  nth_error w i1 = Some x1 -> nth_error w1 i1 = Some y1 -> Gets x1 name o1 -> Gets y1 name (Some s1) -> ~ SameOpt o1 (Some s1) ->
  nth_error w i2 = Some x2 -> nth_error w1 i2 = Some y2 -> Gets x2 name o2 -> Gets y2 name (Some s2) -> ~ SameOpt o2 (Some s2) ->
  ~ SameSpace s1 s2 -> forall w', sync_spaces qj q w1 <> Ok w'.
Proof.
  intros qj q n w ops w1 i1 i2 x1 x2 y1 y2 name o1 o2 s1 s2 Qj Q HW HL HO E1 A1 A2 A3 A4 A5 B1 B2 B3 B4 B5 HN w' E2.
  assert (HW' : SpWorld qj q n w') by (eapply SpWorld_round; eauto). destruct (SpWorld_ready qj q n w' Qj Q HW') as (B & I1 & _).
  destruct (SpWorld_ready qj q n w Qj Q HW) as (B0 & I0 & _).
  assert (Li : (i1 < length w)%nat) by (apply nth_error_Some; congruence).
  destruct w' as [|y w']; [simpl in I1; lia|].
  destruct (C61_change qj q n w ops w1 _ i1 x1 y1 name o1 s1 Qj Q HW HL HO E1 E2 A1 A2 A3 A4 A5 y (or_introl eq_refl)) as (s1' & G1 & S1).
  destruct (C61_change qj q n w ops w1 _ i2 x2 y2 name o2 s2 Qj Q HW HL HO E1 E2 B1 B2 B3 B4 B5 y (or_introl eq_refl)) as (s2' & (z2 & G2) & S2).
  destruct G1 as (z1 & G1). rewrite G1 in G2. injection G2 as _ <-. apply HN.
  assert (X1 : SameOpt (Some s1) (Some s1')) by exact S1. assert (X2 := same_sym (Some s2) (Some s1') S2). cbn in X1, X2.
  unfold SameSpace, same_to in *. destruct X1 as (D & (P1 & P2 & P3) & (P4 & P5 & P6)), X2 as (D' & (R1 & R2 & R3) & (R4 & R5 & R6)). rewrite D in *.
  split; [congruence|]. split; (split; [congruence|]); split; intros; [rewrite P2, R2|rewrite P3, R3|rewrite P5, R5|rewrite P6, R6]; auto.
Qed.

(* A process sees its own changes at once, and nothing else changes for it. [h]: its calls in this round before *)
Theorem C61_own : forall qj q n w x0 h x name d f t x', is_qsort entrycmp qj -> is_qsort kvs_cmp q ->
  SpWorld qj q n w -> In x0 w -> Forall SpOpOk h -> ofold exec_sp h x0 = Ok x -> SpOpOk (PChange name d f t) ->
  change_space name d f t x = Ok x' ->
  (exists s, Gets x' name (Some s) /\ so_dims s = d /\ same_to d (b_from (so_box s)) f /\ same_to d (b_to (so_box s)) t) /\
  (forall name' o o', name' <> name -> Gets x name' o -> Gets x' name' o' -> SameOpt o o').
Proof.
  intros qj q n w x0 h x name d f t x' Qj Q HW Hx HO E HP Ec. destruct (SpWorld_ready qj q n w Qj Q HW) as (B & _ & HR & _). rewrite Forall_forall in HR.
  destruct (exec_sps_ok B h x0 B [] x (HR x0 Hx) HO E) as (m & J & HI). destruct HP as (Hk & Hf & Ht).
  unfold change_space in Ec. destruct (sp_obj (snd x) name) as [s|] eqn:Eo; [|discriminate]. destruct (Nat.eqb (so_dims s) d) eqn:Ed; [|discriminate]. cbn [cassert] in Ec. apply Nat.eqb_eq in Ed.
  assert (HS : Space64 s). { destruct HI as (_ & _ & _ & X). specialize (X _ _ Eo). destruct (seen _ name); cbn in X; tauto. }
  assert (GG : forall x m J s, PIJ B x m J -> sp_obj (snd x) name = Some s -> m name <> None -> Gets x name (Some s)).
  { intros y m' J' s' HI' Eo' Hm. destruct (gets_ex B y m' J' name HI') as (o & (z & G) & X). unfold get_space in G. exists z. unfold get_space.
    apply obind_ok in G. destruct G as (r & -> & G). cbn [obind]. destruct r as [r|].
    - rewrite Eo' in *. injection G as <- <-. reflexivity.
    - injection G as <- <-. destruct (m' name); [destruct X|congruence]. }
  destruct (same_borders d f t s) eqn:Es.
  - injection Ec as <-. split.
    + exists s. split; [apply (GG x m J s HI Eo)|].
      { destruct HI as (HL & _ & _ & X). specialize (X _ _ Eo). assert (S0 : forall k, seen (ks_ent (fst x)) k = m k) by apply HL. rewrite S0 in X. destruct (m name); [discriminate|destruct X]. }
      unfold same_borders in Es. unfold same_to. split; auto.
      destruct d as [|[|[|d]]]; cbn in Es; repeat split; intros; try lia.
    + intros name' o o' _ (z & G) (z' & G'). rewrite G in G'. injection G' as _ <-. apply (Enc_same o (m name') o (m name')); auto; eapply gets_enc; eauto; exists z; exact G.
  - assert (Ew : exists v, space_serialize (set_borders d f t s) = Ok v).
    { unfold space_publish, spacestore_set in Ec. apply obind_ok in Ec. destruct Ec as (st & Ep & _). apply obind_ok in Ep. destruct Ep as (v & Ep & _). eauto. }
    destruct Ew as (v & Ew). destruct (publish_ok B x m J name _ v HI Hk (borders_64 d f t s HS Hf Ht) Ew) as (st & J' & P1 & _ & P3 & _). rewrite P1 in Ec. injection Ec as <-.
    split.
    + exists (set_borders d f t s). split; [|].
      * apply (GG _ _ _ _ P3); cbn [sp_put sp_obj snd]; unfold mput; destruct (list_eq_dec Z.eq_dec name name); congruence.
      * split; [exact Ed|]. unfold same_to, set_borders, set_index. cbn.
        destruct HS as (D & _). rewrite Ed in D. destruct D as [-> |[-> | ->]]; cbn; repeat split; intros; auto; lia.
    + intros name' o o' Hn G G'. assert (X1 := gets_enc _ _ _ _ _ _ HI G). assert (X2 := gets_enc _ _ _ _ _ _ P3 G'). apply (Enc_same _ _ _ _ X1 X2).
      unfold mput. destruct (list_eq_dec Z.eq_dec name' name); congruence.
Qed.

(** one process changes one space *)
Lemma one_exec x wb h x' : ofold exec_sp h x = Ok x' -> forall wa acc,
  ofold (fun acc p => do x <- ofold exec_sp (snd p) (fst p); Ok (acc ++ [x])) (combine (wa ++ x :: wb) (repeat [] (length wa) ++ h :: repeat [] (length wb))) acc = Ok (acc ++ wa ++ x' :: wb).
Proof.
  intros E.
  assert (T : forall wb acc, ofold (fun acc p => do x <- ofold exec_sp (snd p) (fst p); Ok (acc ++ [x])) (combine wb (repeat [] (length wb))) acc = Ok (acc ++ wb)).
  { clear. induction wb as [|y wb IH]; intros acc; cbn [length repeat combine ofold obind fst snd]; [now rewrite app_nil_r|]. rewrite IH, <- app_assoc. reflexivity. }
  induction wa as [|y wa IH]; intros acc; cbn [length repeat app combine ofold fst snd].
  - rewrite E. cbn [obind]. rewrite T, <- app_assoc. reflexivity.
  - cbn [obind]. rewrite IH, <- app_assoc. reflexivity.
Qed.
Lemma get_obj x name x' s : get_space name x = Ok (x', Some s) -> sp_obj (snd x') name = Some s.
Proof.
  unfold get_space. intros E. apply obind_ok in E. destruct E as (r & _ & E). destruct r; [|discriminate]. destruct (sp_obj (snd x) name) eqn:Eo; [injection E as <- <-; auto|].
  apply obind_ok in E. destruct E as ([o|] & _ & E); [|discriminate]. injection E as <- <-. cbn. destruct (list_eq_dec Z.eq_dec name name); congruence.
Qed.
Lemma ser_len s v : space_serialize s = Ok v -> (2 <= length v)%nat.
Proof. unfold space_serialize. destruct (so_dims s) as [|[|[|[|]]]]; try discriminate; intros E; apply put_ok in E; subst v; cbn; lia. Qed.
Lemma F2_flat {A B} (R : A -> B -> Prop) (b : B) l : Forall (fun a => R a b) l -> Forall2 R l (map (fun _ => b) l).
Proof. induction 1; cbn; constructor; auto. Qed.

(* One process gets a space and changes its borders, nobody else does anything: this and the synchronisation
   succeed, and all processes get the space with the new borders. (3d: borders of at most 15 characters, see C44) *)
Theorem C61_one_change : forall qj q n w i x name s d f t, is_qsort entrycmp qj -> is_qsort kvs_cmp q -> SpWorld qj q n w ->
  nth_error w i = Some x -> KeyOk name -> Gets x name (Some s) -> so_dims s = d -> Index64 f -> Index64 t ->
  ~ (same_to d (b_from (so_box s)) f /\ same_to d (b_to (so_box s)) t) ->
  (d = 3%nat -> Forall (fun z => - 10 ^ 14 < z < 10 ^ 15) [i0 f; i1 f; i2 f; i0 t; i1 t; i2 t]) ->
  exists w1 w', exec_sps w (repeat [] i ++ [PGet name; PChange name d f t] :: repeat [] (n - i - 1)) = Ok w1 /\
    sync_spaces qj q w1 = Ok w' /\
    forall y, In y w' -> exists s', Gets y name (Some s') /\ so_dims s' = d /\ same_to d (b_from (so_box s')) f /\ same_to d (b_to (so_box s')) t.
Proof.
  intros qj q n w i x name s d f t Qj Q HW Hx Hk (x' & G) Hd Hf Ht HN H3.
  destruct (SpWorld_ready qj q n w Qj Q HW) as (B & I1 & I2 & I3). destruct (nth_error_split _ _ Hx) as (wa & wb & -> & La).
  apply Forall_app in I2. destruct I2 as (Ia & Ib). inversion Ib as [|? ? Ix Ib']; subst x0 l.
  destruct (get_ok B x B [] name Ix) as (u' & o & G1 & G2 & G3). rewrite G in G1. injection G1 as -> <-. assert (Go := get_obj _ _ _ _ G).
  assert (HS : Space64 s) by (destruct (B name); cbn in G2; tauto).
  set (s2 := set_borders d f t s). assert (S2 : Space64 s2) by (apply borders_64; auto).
  assert (D2 : so_dims s2 = d) by exact Hd.
  assert (T2 : same_to d (b_from (so_box s2)) f /\ same_to d (b_to (so_box s2)) t).
  { destruct HS as (D & _). rewrite Hd in D. unfold s2, same_to, set_borders, set_index. cbn. clear - D. destruct D as [-> |[-> | ->]]; cbn; repeat split; intros; auto; lia. }
  destruct (C44_fits s2 S2) as (v & Ev & _).
  { rewrite D2. intros X. assert (H3' := H3 X). clear - H3' X. subst s2. unfold set_borders, set_index. cbn. rewrite X. cbn. exact H3'. }
  destruct (publish_ok B (fst x, u') B [] name s2 v G3 Hk S2 Ev) as (st & J' & P1 & _ & P3 & P4). set (x2 := (st, sp_put u' name s2)) in *. cbn [snd] in P1, P3.
  assert (Es : same_borders d f t s = false).
  { destruct (same_borders d f t s) eqn:Es; auto. exfalso. apply HN. unfold same_borders in Es. destruct HS as (D & _). rewrite Hd in D. unfold same_to. clear - Es D.
    destruct D as [-> |[-> | ->]]; cbn in Es; repeat split; intros; lia. }
  assert (Ex : ofold exec_sp [PGet name; PChange name d f t] x = Ok x2).
  { cbn [ofold exec_sp]. rewrite G. cbn [obind fst]. unfold change_space. rewrite Go. rewrite Hd, Nat.eqb_refl. cbn [cassert]. rewrite Es. fold s2. rewrite P1. reflexivity. }
  assert (Ln : (n - i - 1)%nat = length wb) by (rewrite app_length in I1; cbn in I1; lia). rewrite Ln, <- La.
  assert (E1 := one_exec x wb _ x2 Ex wa []). cbn [app] in E1.
  exists (wa ++ x2 :: wb).
  set (m2 := mput B name (Some (v ++ [0]))) in *.
  assert (NB : B name <> Some (v ++ [0])).
  { intros X. rewrite X in G2. destruct G2 as (_ & v' & E & Y). apply app_inj_tail in Y. destruct Y as [<- _]. assert (Z := C44_distinct s s2 v HS S2 E Ev).
    apply HN. destruct Z as (_ & Z1 & Z2). rewrite Hd in *. destruct T2 as (T2 & T3). unfold same_to in *. clear - Z1 Z2 T2 T3.
    destruct Z1 as (A1 & A2 & A3), Z2 as (B1 & B2 & B3), T2 as (C1 & C2 & C3), T3 as (D1 & D2 & D3).
    repeat split; intros; first [congruence|rewrite A2, C2|rewrite A3, C3|rewrite B2, D2|rewrite B3, D3]; auto. }
  destruct P4 as [[P4 _]|[_ ->]]; [congruence|]. cbn [app] in P3.
  set (ms := map (fun _ : store * sobjs => B) wa ++ m2 :: map (fun _ : store * sobjs => B) wb).
  assert (F : Forall2 (fun x m => exists J, PIJ B x m J) (wa ++ x2 :: wb) ms).
  { apply Forall2_app; [|constructor]; [apply F2_flat; eapply Forall_impl; [|exact Ia]; intros a Ha; exists []; exact Ha|eexists; exact P3|apply F2_flat; eapply Forall_impl; [|exact Ib']; intros a Ha; exists []; exact Ha]. }
  destruct (states B _ _ F) as (FS & FO).
  set (Js := map (fun _ : store * sobjs => @nil jentry) wa ++ [mkJe name (v ++ [0])] :: map (fun _ : store * sobjs => @nil jentry) wb).
  assert (FJ : Forall2 (fun sm J => LInv VV B (fst sm) (snd sm) J) (combine (map fst (wa ++ x2 :: wb)) ms) Js).
  { unfold ms, Js. rewrite map_app. cbn [map]. clear - Ia Ib' P3.
    assert (T : forall w, Forall (SpReady B) w -> Forall2 (fun sm J => LInv VV B (fst sm) (snd sm) J) (combine (map fst w) (map (fun _ => B) w)) (map (fun _ => []) w)).
    { induction 1 as [|a w Ha H IH]; cbn; constructor; auto. apply Ha. }
    induction Ia as [|a wa Ha H IH]; cbn [map app combine]; constructor; auto.
    - apply P3.
    - apply Ha. }
  assert (InJ : forall J e, In J Js -> In e J -> e = mkJe name (v ++ [0])).
  { intros J e HJ He. unfold Js in HJ. apply in_app_or in HJ. cbn [In] in HJ. destruct HJ as [HJ|[<-|HJ]].
    - apply in_map_iff in HJ. destruct HJ as (? & <- & _). destruct He.
    - destruct He as [<-|[]]. reflexivity.
    - apply in_map_iff in HJ. destruct HJ as (? & <- & _). destruct He. }
  destruct (sync_total VV qj q B (map fst (wa ++ x2 :: wb)) ms Js [(name, v ++ [0])] VV_pf Qj Q I3) as (ws & Ews); auto.
  { destruct wa; discriminate. }
  { intros J1 J2 e1 e2 H1 H2 X1 X2 _. rewrite (InJ _ _ H1 X1), (InJ _ _ H2 X2). reflexivity. }
  { rewrite Forall_forall. intros J HJ. unfold Js in HJ. apply in_app_or in HJ. cbn [In] in HJ. destruct HJ as [HJ|[<-|HJ]].
    - apply in_map_iff in HJ. destruct HJ as (? & <- & _). constructor.
    - cbn. constructor; [intros []|constructor].
    - apply in_map_iff in HJ. destruct HJ as (? & <- & _). constructor. }
  { rewrite Forall_forall. intros J HJ. rewrite Forall_forall. intros e He. rewrite (InJ _ _ HJ He). cbn. destruct v; discriminate. }
  { constructor; [intros []|constructor]. }
  { intros k0 v0. cbn [In]. split.
    - intros [[= <- <-]|[]]. exists [mkJe name (v ++ [0])]. split; [|now left]. unfold Js. apply in_or_app. right. now left.
    - intros (J & HJ & He). assert (X := InJ _ _ HJ He). injection X as -> ->. now left. }
  { cbn [length map total fold_right]. unfold change_bytes. cbn [fst snd]. rewrite app_length. cbn [length]. assert (X := ser_len s2 v Ev). lia. }
  destruct (sync_spaces_ok qj q B _ ms ws Qj Q FS FO Ews) as (w' & W1 & _ & _). exists w'. split; [exact E1|]. split; [exact W1|].
  intros y Hy. destruct (round_ok qj q B _ ms w' Qj Q I3 F W1) as (B' & R1 & R2 & R3 & R4 & R5). rewrite Forall_forall in R2.
  destruct (gets_ex B' y B' [] name (R2 y Hy)) as (o' & Gy & X3).
  assert (M2 : m2 name = Some (v ++ [0])) by (unfold m2, mput; destruct (list_eq_dec Z.eq_dec name name); congruence).
  rewrite (R4 name m2) in X3; [|unfold ms; apply in_or_app; right; now left|congruence]. rewrite M2 in X3.
  assert (X2 : Enc (Some s2) (Some (v ++ [0]))) by (cbn; split; auto; exists v; auto).
  assert (X := proj2 (Enc_same _ _ _ _ X2 X3) eq_refl). destruct o' as [s'|]; [|destruct X]. exists s'. split; auto.
  destruct X as (X0 & X4 & X5). rewrite D2 in *. split; auto. destruct T2 as (T2 & T3). unfold same_to in *. clear - X4 X5 T2 T3.
  destruct X4 as (A1 & A2 & A3), X5 as (B1 & B2 & B3), T2 as (C1 & C2 & C3), T3 as (D1 & D2 & D3).
  repeat split; intros; first [congruence|rewrite <- A2, C2|rewrite <- A3, C3|rewrite <- B2, D2|rewrite <- B3, D3]; auto.
Qed.

(** space objects stay valid *)
Lemma collect_snd {U} qk : forall (r : list (store * U)) acc, ofold (fun acc p => do p' <- (do s <- sync_end qk (fst p); Ok (s, snd p)); Ok (acc ++ [p'])) r acc =
  ofold (fun acc p => do s <- sync_end qk (fst p); Ok (acc ++ [(s, snd p)])) r acc.
Proof. induction r as [|x r IH]; intros acc; cbn [ofold]; auto. destruct (sync_end qk (fst x)); cbn [obind]; [apply IH|reflexivity..]. Qed.
Section Rel.
  Context {U : Type}.
  Variable f : list Z -> list Z -> U -> outcome U.
  Variable R : U -> U -> Prop.
  Hypothesis Rr : forall u, R u u.
  Hypothesis Rt : forall a b c, R a b -> R b c -> R a c.
  Hypothesis Rf : forall k v u u', f k v u = Ok u' -> R u u'.
  Lemma set_rel x k v y : kvs_set_cb f x k v = Ok y -> R (snd x) (snd y).
  Proof.
    unfold kvs_set_cb. intros H. apply obind_ok in H. destruct H as (b & _ & H). apply obind_ok in H. destruct H as (s & _ & H). apply obind_ok in H. destruct H as (u & E & H). injection H as <-.
    cbn [snd]. destruct b; [eapply Rf; eauto|injection E as <-; auto].
  Qed.
  Lemma loop_rel data : forall m off x y, (length off <= m)%nat -> apply_loop_cb f off data x = Ok y -> R (snd x) (snd y).
  Proof.
    induction m as [|m IH]; intros off x y Hm E.
    { destruct off; [|simpl in Hm; lia]. injection E as <-. auto. }
    destruct off as [|o0 [|o1 [|o2 t]]]; try (injection E as <-; auto; fail); [discriminate E|].
    rewrite Proof_Location1.apply_loop_cb_step in E. destruct (o1 >? o0); [|discriminate]. destruct (o2 >? o1); [|discriminate]. cbn [cassert] in *.
    apply obind_ok in E. destruct E as (x' & E1 & E2). apply (Rt _ (snd x') _); [eapply set_rel; eauto|]. apply (IH (o2 :: t)); auto. simpl in *; lia.
  Qed.
  Lemma changes_rel c x y : changes_apply_cb f c x = Ok y -> R (snd x) (snd y).
  Proof.
    unfold changes_apply_cb. destruct (offused c =? 0); [intros [= <-]; auto|]. destruct (Z.odd (offused c)); [|discriminate]. destruct (0 <? dataused c); [|discriminate]. cbn [cassert].
    apply (loop_rel (j_data c) (length (j_off c))). auto.
  Qed.
  Lemma recv_rel d x y : recv_merged_cb f d x = Ok y -> R (snd x) (snd y).
  Proof.
    unfold recv_merged_cb. destruct (0 <? offused d).
    - destruct (0 <? dataused d); [|discriminate]. cbn [cassert]. intros E. apply obind_ok in E. destruct E as (c1 & _ & E). apply obind_ok in E. destruct E as (c2 & _ & E). apply changes_rel in E. exact E.
    - destruct (dataused d =? 0); [|discriminate]. intros [= <-]. auto.
  Qed.
  Lemma sync_rel qj qk l l' : kvs_sync_mpi_cb f qj qk l = Ok l' -> Forall2 (fun x y => R (snd x) (snd y)) l l'.
  Proof.
    unfold kvs_sync_mpi_cb. intros E. apply obind_ok in E. destruct E as (r & E1 & E2).
    assert (F2 : Forall2 (fun x y => snd x = snd y) r l').
    { destruct (collect_ok (fun p : store * U => do s <- sync_end qk (fst p); Ok (s, snd p)) r [] l') as (l2 & Y & F); [|cbn in Y; subst l2].
      - rewrite <- E2. clear. apply collect_snd.
      - clear E1 E2. induction F as [|a b r l' Ea F IH]; constructor; auto. apply obind_ok in Ea. destruct Ea as (s & _ & Ea). injection Ea as <-. reflexivity. }
    assert (F1 : Forall2 (fun x y => R (snd x) (snd y)) l r).
    { destruct l as [|x l]; [discriminate E1|]. unfold mpi_sync_cb in E1. cbn [map] in E1. apply obind_ok in E1. destruct E1 as (c0 & _ & E1). apply obind_ok in E1. destruct E1 as ([[[dst src] rc] own] & _ & E1).
      destruct (dataused dst >? offused dst); [|discriminate]. cbn [cassert] in E1. apply obind_ok in E1. destruct E1 as (m' & A & E1). apply obind_ok in E1. destruct E1 as (o' & Bo & E1). injection E1 as <-.
      constructor; [apply changes_rel in A; exact A|]. destruct (collect_ok (recv_merged_cb f dst) _ [] _ Bo) as (o2 & Y & F). cbn in Y. subst o2. clear - F Rr Rt Rf. revert o' F.
      induction l as [|y l IH]; intros o' F; cbn [map] in F; inversion F as [|? b ? o2 E F']; subst; constructor; auto. apply recv_rel in E. exact E. }
    clear - F1 F2. revert l' F2. induction F1 as [|x y l r H1 F1 IH]; intros l' F2; inversion F2 as [|? z ? l2 E F]; subst; constructor; auto. rewrite <- E. exact H1.
  Qed.
End Rel.

Definition sid (u : sobjs) (name : list Z) : nat := match sp_obj u name with Some s => so_id s | None => fst (sp_mem u name) end.
Lemma set_id s v b s' : space_set s v = (b, s') -> so_id s' = so_id s.
Proof.
  unfold space_set. destruct v as [|c r]; [intros [= _ <-]; auto|]. destruct (_ || _); [intros [= _ <-]; auto|]. destruct (c - 48 =? 1); [intros [= _ <-]; auto|]. destruct (c - 48 =? 2); intros [= _ <-]; auto.
Qed.
Lemma update_sid k v u u' : update_space k v u = Ok u' -> forall name, sid u' name = sid u name.
Proof.
  unfold update_space. destruct (space_set _ _) as [b s'] eqn:E. destruct b; [|discriminate]. cbn [cassert]. intros [= <-] name. unfold sid, sp_put. cbn [sp_obj sp_mem].
  destruct (list_eq_dec Z.eq_dec name k) as [->|]; auto. apply set_id in E. rewrite E. destruct (sp_obj u k); reflexivity.
Qed.
Lemma gets_sid x name s : Gets x name (Some s) -> so_id s = sid (snd x) name.
Proof.
  intros (x' & E). unfold get_space in E. unfold sid. apply obind_ok in E. destruct E as (r & Er & E). destruct r as [r|]; [|discriminate]. destruct (sp_obj (snd x) name) eqn:Eo; [injection E as _ <-; auto|].
  apply obind_ok in E. destruct E as ([o|] & Eg & E); [|discriminate]. injection E as _ <-. unfold spacestore_get in Eg. rewrite Er in Eg. cbn [obind] in Eg.
  apply obind_ok in Eg. destruct Eg as ([v|] & _ & Eg); [|discriminate]. destruct (space_set _ _) as [b s'] eqn:Es. destruct b; [|discriminate]. injection Eg as ->. apply set_id in Es. exact Es.
Qed.

(* The synchronisation changes space objects in place: a process which got a space before gets the same object
   afterwards, so that its pointer is still valid and shows the changes *)
Theorem C61_in_place : forall qj q w w' i x y name s s', sync_spaces qj q w = Ok w' -> nth_error w i = Some x -> nth_error w' i = Some y ->
  Gets x name (Some s) -> Gets y name (Some s') -> so_id s' = so_id s.
Proof.
  intros qj q w w' i x y name s s' E Hx Hy Gx Gy. apply gets_sid in Gx. apply gets_sid in Gy.
  assert (F : Forall2 (fun x y => forall nm, sid (snd y) nm = sid (snd x) nm) w w').
  { apply (sync_rel update_space (fun u u' => forall nm, sid u' nm = sid u nm)) with (qj := qj) (qk := q); auto; [intros a b c A B nm; rewrite B; auto|apply update_sid]. }
  destruct (F2_nth _ _ _ _ _ F Hx) as (y' & Hy' & X). rewrite Hy in Hy'. injection Hy' as <-. rewrite Gx, Gy. apply X.
Qed.

(* Refuted: processes cannot call laik_sync_spaces at any time. If no space was changed since the last call, the
   program aborts. *)
Definition c61_mem (k : nat) : list Z -> nat * (option nat * box) := fun _ => (k, (None, mkBox (mkIdx 7 7 7) (mkIdx 9 9 9))).
Lemma c61_mem_ok k : MemOk (c61_mem k).
Proof. intros name. unfold Index64, Int64. cbn. lia. Qed.
Definition c61_name : list Z := [103; 114; 105; 100].
Definition c61_s : sobj := mkSo 1 2 (Some 1%nat) (mkBox (mkIdx 0 0 0) (mkIdx 100 50 0)).
Definition c61_new : list (store * sobjs) := map (fun m => (xs0, mkSos (fun _ => None) m)) (map c61_mem [11%nat; 12%nat; 13%nat]).
Notation c61_ops1 := [[PPublish c61_name c61_s]; []; []].
Notation c61_ops2 := [[]; [PGet c61_name; PChange c61_name 2 (mkIdx 0 10 0) (mkIdx 100 60 0)]; [PGet c61_name]].
Notation c61_sync w := (sync_spaces (isort entrycmp) (isort kvs_cmp) w).
Notation c61_round w ops := (match exec_sps w ops with Ok w1 => match c61_sync w1 with Ok w' => w' | _ => [] end | _ => [] end).
Lemma c61_name_ok : KeyOk c61_name.
Proof. unfold KeyOk, c61_name. cbn. lia. Qed.
Lemma c61_s_ok : Space64 c61_s.
Proof. unfold Space64, Index64, Int64. cbn. lia. Qed.
Lemma c61_world0 : SpWorld (isort entrycmp) (isort kvs_cmp) 3 c61_new.
Proof. apply SpWorld_new; [reflexivity|reflexivity|]. repeat constructor; apply c61_mem_ok. Qed.
Lemma c61_ops1_ok : Forall (Forall SpOpOk) c61_ops1.
Proof. repeat (apply Forall_cons || apply Forall_nil); cbn [SpOpOk]; auto using c61_name_ok, c61_s_ok. Qed.
Lemma c61_ops2_ok : Forall (Forall SpOpOk) c61_ops2.
Proof. repeat (apply Forall_cons || apply Forall_nil); cbn [SpOpOk]; auto using c61_name_ok; split; [apply c61_name_ok|]; unfold Index64, Int64; cbn; lia. Qed.
Definition c61_eq (o : outcome (list (store * sobjs))) (c : list Z) : option (list (option sobj * bool)) :=
  match o with Ok w => Some (map (fun x => match get_space c x with Ok (_, o) => (o, true) | _ => (None, false) end) w) | _ => None end.
Lemma c61_rounds : exists w1 w2 w3 w4, exec_sps c61_new c61_ops1 = Ok w1 /\ c61_sync w1 = Ok w2 /\ exec_sps w2 c61_ops2 = Ok w3 /\ c61_sync w3 = Ok w4 /\
  c61_eq (Ok w2) c61_name = Some [(Some c61_s, true); (Some (mkSo 12 2 None (mkBox (mkIdx 0 0 7) (mkIdx 100 50 9))), true); (Some (mkSo 13 2 None (mkBox (mkIdx 0 0 7) (mkIdx 100 50 9))), true)] /\
  c61_eq (Ok w4) c61_name = Some [(Some (mkSo 1 2 (Some 1%nat) (mkBox (mkIdx 0 10 0) (mkIdx 100 60 0))), true); (Some (mkSo 12 2 None (mkBox (mkIdx 0 10 7) (mkIdx 100 60 9))), true);
    (Some (mkSo 13 2 None (mkBox (mkIdx 0 10 7) (mkIdx 100 60 9))), true)] /\
  exec_sps w2 [[]; []; []] = Ok w2 /\ c61_sync w2 = Abort /\
  exists w5, exec_sps w2 [[PGet c61_name; PChange c61_name 2 (mkIdx 0 1 0) (mkIdx 100 50 0)]; [PGet c61_name; PChange c61_name 2 (mkIdx 0 2 0) (mkIdx 100 50 0)]; []] = Ok w5 /\ c61_sync w5 = Panic.
Proof.
  eexists. eexists. eexists. eexists. split; [vm_compute; reflexivity|]. split; [vm_compute; reflexivity|]. split; [vm_compute; reflexivity|]. split; [vm_compute; reflexivity|].
  split; [vm_compute; reflexivity|]. split; [vm_compute; reflexivity|]. split; [reflexivity|]. split; [vm_compute; reflexivity|]. eexists. split; vm_compute; reflexivity.
Qed.
Theorem C61_idle_refuted : exists w, SpWorld (isort entrycmp) (isort kvs_cmp) 3 w /\ (exists x s, In x w /\ Gets x c61_name (Some s)) /\ sync_spaces (isort entrycmp) (isort kvs_cmp) w = Abort.
Proof.
  destruct c61_rounds as (w1 & w2 & w3 & w4 & E1 & E2 & _ & _ & G & _ & _ & E & _). exists w2. split; [|split; [|exact E]].
  - apply (SpWorld_round _ _ _ c61_new c61_ops1 w1 w2 c61_world0 eq_refl c61_ops1_ok E1 E2).
  - destruct w2 as [|x w2]; [discriminate G|]. exists x, c61_s. split; [now left|]. cbn [c61_eq map] in G. unfold Gets. destruct (get_space c61_name x) as [[x' o]| | | |]; try discriminate. injection G as -> _. eauto.
Qed.

(* Three processes: the first one publishes a space; in the next round the second one changes it. The other two have
   space objects before the second synchronisation. *)
Example C61_example : exists w2 w3 w4, SpWorld (isort entrycmp) (isort kvs_cmp) 3 w2 /\ exec_sps w2 c61_ops2 = Ok w3 /\ sync_spaces (isort entrycmp) (isort kvs_cmp) w3 = Ok w4 /\ SpWorld (isort entrycmp) (isort kvs_cmp) 3 w4 /\
  c61_eq (Ok w4) c61_name = Some [(Some (mkSo 1 2 (Some 1%nat) (mkBox (mkIdx 0 10 0) (mkIdx 100 60 0))), true); (Some (mkSo 12 2 None (mkBox (mkIdx 0 10 7) (mkIdx 100 60 9))), true);
    (Some (mkSo 13 2 None (mkBox (mkIdx 0 10 7) (mkIdx 100 60 9))), true)].
Proof.
  destruct c61_rounds as (w1 & w2 & w3 & w4 & E1 & E2 & E3 & E4 & _ & G & _).
  assert (W2 : SpWorld (isort entrycmp) (isort kvs_cmp) 3 w2) by (apply (SpWorld_round _ _ _ c61_new c61_ops1 w1 w2 c61_world0 eq_refl c61_ops1_ok E1 E2)).
  exists w2, w3, w4. split; auto. split; auto. split; auto. split; auto. apply (SpWorld_round _ _ _ w2 c61_ops2 w3 w4 W2 eq_refl c61_ops2_ok E3 E4).
Qed.
(* two processes change the space differently: the program ends *)
Example C61_conflict_example : exists w2 w5, SpWorld (isort entrycmp) (isort kvs_cmp) 3 w2 /\
  exec_sps w2 [[PGet c61_name; PChange c61_name 2 (mkIdx 0 1 0) (mkIdx 100 50 0)]; [PGet c61_name; PChange c61_name 2 (mkIdx 0 2 0) (mkIdx 100 50 0)]; []] = Ok w5 /\
  sync_spaces (isort entrycmp) (isort kvs_cmp) w5 = Panic.
Proof.
  destruct c61_rounds as (w1 & w2 & w3 & w4 & E1 & E2 & _ & _ & _ & _ & _ & _ & w5 & E5 & E6). exists w2, w5. split; auto.
  apply (SpWorld_round _ _ _ c61_new c61_ops1 w1 w2 c61_world0 eq_refl c61_ops1_ok E1 E2).
Qed.

Print Assumptions C61_agree.
Print Assumptions C61_change.
Print Assumptions C61_unchanged.
Print Assumptions C61_conflict.
Print Assumptions C61_own.
Print Assumptions C61_one_change.
Print Assumptions C61_in_place.
Print Assumptions C61_idle_refuted.
Print Assumptions C61_example.
Print Assumptions C61_conflict_example.
