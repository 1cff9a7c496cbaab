(* Transfer of the values of a range with the TCP2 backend: both sides *)
From Coq Require Import ZArith List Bool Lia ZifyBool ZifyNat.
From Verif Require Import Base ListFacts Model_Space Model_RangeList Model_Mem Model_Layout Model_Transition Model_KVS Model_SpaceStore Model_Tcp2
  Spec_Space Spec_Type Spec_Layout Spec_SpaceStore Spec_Tcp2 Proof_Space Proof_Type Proof_RangeList5 Proof_Layout Proof_Layout2 Proof_Layout3 Proof_Layout4 Proof_Layout5 Proof_Layout6
  Proof_SpaceStore Proof_Tcp2 Proof_Tcp3 Proof_Tcp4.
Import ListNotations.
Open Scope Z_scope.

Lemma keeps_calm {X} (g : pstate X -> pstate X) : KeepsReceive g -> Calm X g.
Proof. intros H es s. unfold readyb. rewrite H. auto. Qed.

Lemma nodata_skip {A} (l : list A) n : skipn n l = [] -> (length l <= n)%nat.
Proof. intros H. apply (f_equal (@length _)) in H. rewrite skipn_length in H. cbn in H. lia. Qed.

Section Both.
Variables (rd : redop -> list Z -> list Z -> outcome (list Z)) (X : Type) (other : X -> list Z -> outcome X).
Variables (sp : space) (b : box) (mps : lmap) (Bs : box) (Ns : Z) (mpr : lmap) (Br : box) (Nr : Z) (ms : mem) (ro : redop) (m0 : mem).
Local Notation d := (sp_dims sp).
Local Notation L := (lexlist d b).
Hypothesis Hd : valid_dims d.
Hypothesis Hne : NonEmpty d b.
Hypothesis HGs : GoodMap sp mps Bs Ns.
Hypothesis Hss : SubBox d b Bs.
Hypothesis HGr : GoodMap sp mpr Br Nr.
Hypothesis Hsr : SubBox d b Br.
Hypothesis Hes : lm_es mps = lm_es mpr.
Local Notation es := (lm_es mpr).
Hypothesis HC : forall i old e, InBox d i b -> ValueAt mpr m0 i old -> ValueAt mps ms i e -> exists v, Combined rd ro old e v /\ zlen v = es.

Lemma value_adr mp B N m i v : GoodMap sp mp B N -> InBox d i B -> (ValueAt mp m i v <-> v = mread m (adr d mp B i) (Z.to_nat (lm_es mp))).
Proof.
  intros (G1 & G2 & G3) Hi. unfold ValueAt, AddrOf. rewrite (offset_ok sp _ _ B i Hd G1 G2 Hi). split.
  - intros (a & (o & E & ->) & ->). injection E as <-. reflexivity.
  - intros ->. eexists. split; [eexists; split; reflexivity|]. reflexivity.
Qed.

Definition ev (i : index) : list Z := val sp mps Bs ms i.
Definition old (i : index) : list Z := mread m0 (adr d mpr Br i) (Z.to_nat es).
Definition nv (i : index) : list Z :=
  match ro with RO_None => ev i | o => match rd o (old i) (ev i) with Ok v => v | _ => [] end end.

Lemma ev_len i : zlen (ev i) = es. Proof. unfold ev. rewrite (val_len sp mps Bs Ns ms); auto. Qed.

Lemma nv_ok i : InBox d i b -> zlen (nv i) = es /\ Combined rd ro (old i) (ev i) (nv i).
Proof.
  intros Hi. destruct (HC i (old i) (ev i) Hi) as (v & V1 & V2).
  - apply (value_adr mpr Br Nr m0 i); auto.
  - apply (value_adr mps Bs Ns ms i); auto.
  - unfold nv, Combined in *. destruct ro; try (rewrite V1 in *; auto); subst; auto.
Qed.

Lemma run_ok lid x p steps n bytes bin p0 :
  0 <= lid -> HasCount d b n -> n < 2 ^ 31 -> (bin = true -> es <= 8189) -> Bytes ms ->
  recv_start sp b mpr ro p0 = Ok p -> send_range bin lid sp b mps ms (pr_count p) (pr_es p) = Ok bytes ->
  Forall (fun st => KeepsReceive (snd st) /\ forall a, Inside d mpr b a -> Keeps a (snd st)) steps ->
  exists s' f' w' r', receive rd X other (x, p, m0) (mkFd [] 0) [] bytes steps = Ok (s', f', w', r') /\
    (recv_done (snd (fst s')) = true <-> w' = [] /\ r' = []) /\
    (w' = [] -> r' = [] -> f' = mkFd [] 0) /\
    (recv_done (snd (fst s')) = true -> forall i, In i L -> mread (snd s') (adr d mpr Br i) (Z.to_nat es) = nv i) /\
    (forall a, ~ Inside d mpr b a -> Forall (fun st => Keeps a (snd st)) steps -> snd s' a = m0 a) /\
    (forall st1 st2, steps = st1 ++ st2 -> zlen bytes <= arrivals st1 -> zlen bytes <= zlen st2 -> recv_done (snd (fst s')) = true).
Proof.
  intros Hlid Hc Hn Hb Ht Hs Hsend HK.
  assert (Hv := vol_of_count d b n Hd Hne Hc). assert (Hp := vol_pos d b Hd Hne). assert (HL := L_len sp b Hd Hne).
  (* the receive *)
  assert (Hp1 : p = mkRp n 0 es (Some mpr) sp b (b_from b) ro).
  { unfold recv_start in Hs. apply cassert_ok in Hs. destruct Hs as [_ Hs]. apply cassert_ok in Hs. destruct Hs as [_ Hs].
    rewrite box_size_vol, <- Hv in Hs; auto; [|rewrite <- Hv; change two64 with (2 ^ 31 * 2 ^ 33); lia]. cbn [obind] in Hs. rewrite as_int_id in Hs by lia. apply cassert_ok in Hs. destruct Hs as [_ Hs]. congruence. }
  rewrite Hp1 in Hsend. cbn [pr_count pr_es] in Hsend. rewrite <- Hes in Hsend.
  (* what is sent *)
  destruct (send_its sp b mps Bs Ns ms lid Hd HGs Hne Hss Hlid bin n bytes Hc Hn) as (its & E1 & E2 & E3); auto.
  { intros ->. rewrite Hes. auto. }
  { intros ->. apply Forall_forall. intros i _. unfold val. apply mread_bytes. auto. }
  rewrite Hes in E3. fold d in E3. change (val sp mps Bs ms) with ev in E3.
  (* framing *)
  assert (HCalm : Forall (fun st => Calm X (snd st)) steps) by (eapply Forall_impl; [|exact HK]; intros st [K _]; apply keeps_calm; auto).
  assert (Part0 : Partial (zlen (@nil Z)) (pevents (PI its))).
  { cbn [pevents]. destruct (events its) as [|e0 l0] eqn:Eev; cbn; auto. assert (NN := events_nonneg its). change (zlen (@nil Z)) with 0. split; [lia|].
    destruct its as [|[c|es0 els] its]; cbn in Eev; [discriminate| |]; injection Eev as <- <-; cbn; [pose proof (zlen_nonneg c); lia|lia]. }
  destruct (recv_run rd X other (events its) steps (PI its) [] [] bytes [] HCalm E2 eq_refl ltac:(rewrite E1; reflexivity) Part0 (Forall_nil _)) as (ks & R1 & R2).
  change (size []) with 0 in R1, R2. change (zlen (@nil Z)) with 0 in R1, R2. change (0 + 0) with 0 in R1, R2.
  assert (Hsz : size (events its) = zlen bytes) by (rewrite E1; apply size_events; auto). rewrite Hsz in R1. replace (zlen bytes - zlen bytes) with 0 in R1 by lia.
  destruct (reads_facts X (zlen bytes) steps 0 0 ks ltac:(lia) (zlen_nonneg _) R1) as (K1 & K2 & K3).
  (* handling *)
  set (Kept := fun a => Forall (fun st : nat * (pstate X -> pstate X) => Keeps a (snd st)) steps).
  assert (Hnv : forall i, In i L -> zlen (nv i) = es /\ Combined rd ro (mread m0 (adr d mpr Br i) (Z.to_nat es)) (ev i) (nv i)).
  { intros i Hi. apply nv_ok. apply (proj1 (lexlist_enum d b Hd Hne)) in Hi. tauto. }
  set (Inv := EInv X sp b mpr Br ro m0 ev nv Kept).
  assert (Hstep : forall e l s, Inv (e :: l) s -> exists s', apply_event rd X other s e = Ok s' /\ Inv l s').
  { apply (event_ok rd X other sp b mpr Br Nr ro m0 ev nv Kept Hd HGr Hne Hsr); auto.
    - lia.
    - apply ev_len.
    - intros. unfold ev, val. apply mread_bytes. auto. }
  assert (Hgs : forall g l s, In g (map snd steps) -> Inv l s -> Inv l (g s)).
  { intros g l s Hg (j & J1 & J2). exists j. split; auto. apply in_map_iff in Hg. destruct Hg as (st & <- & Hst).
    assert (HKs := HK). rewrite Forall_forall in HKs. destruct (HKs st Hst) as [Q1 Q2]. destruct J2 as (idx & I1 & I2 & I3 & I4).
    exists idx. rewrite Q1. conjs; auto.
    - intros k i Hk. rewrite <- (I3 k i Hk). apply mread_ext. intros a Ha. apply Q2.
      assert (Hi : In i L) by (eapply nth_error_In; eauto). apply (proj1 (lexlist_enum d b Hd Hne)) in Hi. destruct Hi as [Hi _].
      destruct HGr as (G1 & G2 & G3 & G4 & _). exists i, (adr d mpr Br i). conjs; auto; try lia.
      exists (boff d Br i). split; [|reflexivity]. apply (offset_ok sp _ _ Br i Hd G1 G2). apply Hsr. auto.
    - intros a Ha1 Ha2. assert (Ha2' := Ha2). unfold Kept in Ha2'. rewrite Forall_forall in Ha2'. rewrite (Ha2' st Hst). auto. }
  assert (Inv0 : Inv (skipn (length (complete 0 (events its))) (map fst (events its))) (x, p, m0)).
  { assert (C0 : complete 0 (events its) = []).
    { apply (complete_split [] (events its) 0 (Forall_nil _)). change (size []) with 0. exact Part0. }
    rewrite C0. cbn [length skipn]. exists 0%nat. split; [exact E3|]. exists (b_from b). cbn [fst snd]. conjs; auto.
    - rewrite Hp1. f_equal. lia.
    - intros _. split; [apply (from_in sp b Hne)|reflexivity]. }
  destruct (handle_keeps rd X other Inv Hstep (events its) ks (map snd steps) 0 (x, p, m0) K1 Hgs ltac:(rewrite map_length; auto) Inv0) as (s' & H1 & H2).
  destruct (R2 (x, p, m0) I s' H1) as (f' & w' & r' & Q1 & Q2 & Q3).
  replace (0 + zsum ks) with (zsum ks) in H2 by lia. replace (0 + zlen bytes) with (zlen bytes) in Q2 by lia.
  assert (Hz : forall l : list Z, zlen l = 0 <-> l = []).
  { intros l. split; [|intros ->; reflexivity]. destruct l; auto. rewrite zlen_cons. pose proof (zlen_nonneg l). lia. }
  pose proof (zlen_nonneg w'). pose proof (zlen_nonneg r').
  assert (Hzs : 0 <= zsum ks) by (clear - K1; induction K1; cbn [zsum fold_right]; [lia|]; unfold zsum in *; lia).
  destruct H2 as (j & J1 & J2). assert (J2' := J2). destruct J2' as (idx & I1 & I2 & I3 & I4).
  assert (Hdone : recv_done (snd (fst s')) = true <-> (length L <= j)%nat).
  { rewrite I1. unfold recv_done. cbn [pr_off pr_count]. unfold zlen. lia. }
  assert (Hend : recv_done (snd (fst s')) = true <-> w' = [] /\ r' = []).
  { rewrite Hdone, <- !Hz. destruct (Z.eq_dec (zsum ks) (zlen bytes)) as [Eq|Ne].
    - rewrite Eq in J1. rewrite complete_all in J1 by (try lia; apply events_nonneg). rewrite map_length, skipn_all2 in J1 by (rewrite map_length; lia). inversion J1; subst. lia.
    - assert (Hrem := complete_less (zsum ks) (events its) (events_nonneg its) ltac:(lia)).
      destruct (skipn _ _) as [|e0 l0] in J1, Hrem; [congruence|]. apply EvOk_pos in J1. lia. }
  exists s', f', w', r'. conjs; auto.
  - intros Hdn i Hi. apply In_nth_error in Hi. destruct Hi as [k Hk]. rewrite (I3 k i Hk). assert (k < length L)%nat by (apply nth_error_Some; congruence). replace (k <? j)%nat with true by (apply Hdone in Hdn; lia). reflexivity.
  - intros st1 st2 Est A1 A2. apply Hend. rewrite <- !Hz. subst steps.
    assert (RA := reads_all X (zlen bytes) st1 st2 0 0 ks ltac:(lia) (zlen_nonneg _) R1 ltac:(lia) A2). lia.
Qed.
End Both.
