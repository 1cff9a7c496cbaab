(* C54: progress and termination *)
From Coq Require Import ZArith List Bool Lia ZifyBool ZifyNat Sorted Permutation.
From Verif Require Import Base ListFacts Model_RangeList Model_KVS Model_SpaceStore Model_Tcp2 Model_Switch Spec_RangeList Spec_KVS Model_Tcp2Sync Spec_Tcp2Sync
  Proof_KVS Proof_KVS2 Proof_KVS3 Proof_KVS5 Proof_KVS6 Proof_KVS8 Proof_Tcp2Sync1 Proof_Tcp2Sync2 Proof_Tcp2Sync3 Proof_Tcp2Sync4 Proof_Tcp2Sync5.
Import ListNotations.
Open Scope Z_scope.

Lemma sdone_spec N s : sdone N s = true <-> forall p, 0 <= p < N -> sq_prog (sn_proc s p) = [] /\ sq_ph (sn_proc s p) = PUser.
Proof.
  unfold sdone. rewrite forallb_forall. split; intros H p Hp.
  - assert (X := H (Z.to_nat p)). rewrite in_seq in X. specialize (X ltac:(lia)). rewrite Z2Nat.id in X by lia. cbv zeta in X. destruct (sq_prog _); [|discriminate]. destruct (sq_ph _); try discriminate. auto.
  - apply in_seq in Hp. destruct (H (Z.of_nat p) ltac:(lia)) as (-> & ->). reflexivity.
Qed.

(* ---------- when a process cannot run ---------- *)
Lemma go_none name q N p x : go name q N p x = Ok None ->
  match sq_ph x with PUser => sq_prog x = [] | PAllow => sq_name x = None | PData | PGather _ => waits x = true end.
Proof.
  unfold go. destruct (sq_ph x).
  - destruct (sq_prog x) as [|[o|] r]; auto.
    + destruct (exec_op _ _ _); cbn; discriminate.
    + unfold cassert. destruct (negb _); [|discriminate]. destruct (match sq_name x with Some n => _ | None => true end); [|discriminate].
      destruct (p >? 0); [discriminate|]. destruct (ask _ _ _ _ _); cbn; discriminate.
  - destruct (sq_name x) as [n|]; auto. unfold cassert. destruct (same_name name n); [|discriminate]. destruct (upd_cmds _); cbn; discriminate.
  - destruct (waits x); auto. destruct (sync_leave _ _ _); cbn; discriminate.
  - destruct (waits x); auto. destruct (ask _ _ _ _ _); cbn; discriminate.
Qed.
Lemma step_go_none name q N s p : sstep name q N s p Go = Ok None -> go name q N p (sn_proc s p) = Ok None.
Proof. unfold sstep. destruct (go name q N p (sn_proc s p)) as [[[x ms]|]| | | |]; cbn; auto; discriminate. Qed.
Lemma step_msg_none name q N s p r : sstep name q N s p (Msg r) = Ok None -> sn_wire s r p = [].
Proof. unfold sstep. destruct (sn_wire s r p); auto. destruct (got_kvs _ _ _); cbn; discriminate. Qed.

(* ---------- measure ---------- *)
Section Measure.
Variable name : list Z.
Variable q : list kentry -> list kentry.
Variable N : Z.
Hypothesis HN : 1 <= N.

Definition wstep (k : kstep) : nat := match k with SOp _ => 1 | SSync => Z.to_nat (N + 3) end.
Definition wph (ph : sphase) : nat := match ph with PUser => 0 | PAllow => 2 | PData => 1 | PGather l => S (Z.to_nat (N - l)) end.
Definition nsum (l : list nat) : nat := fold_right Nat.add 0%nat l.
Definition gw (x : sproc) : nat := nsum (map wstep (sq_prog x)) + wph (sq_ph x).
Definition procs : list nat := seq 0 (Z.to_nat N).
Definition meG (s : snet) : nat := nsum (map (fun p => gw (sn_proc s (Z.of_nat p))) procs).
Definition meM (s : snet) : nat := nsum (map (fun p => nsum (map (fun r => length (sn_wire s (Z.of_nat r) (Z.of_nat p))) procs)) procs).

Lemma nsum_le {A} (f g : A -> nat) l : (forall x, In x l -> (f x <= g x)%nat) -> (nsum (map f l) <= nsum (map g l))%nat.
Proof. induction l as [|a l IH]; cbn; intros H; [lia|]. assert (X := H a (or_introl eq_refl)). assert (Y := IH (fun x Hx => H x (or_intror Hx))). unfold nsum in *. lia. Qed.
Lemma nsum_lt {A} (f g : A -> nat) l a : (forall x, In x l -> (f x <= g x)%nat) -> In a l -> (f a < g a)%nat -> (nsum (map f l) < nsum (map g l))%nat.
Proof.
  induction l as [|b l IH]; cbn; intros H Ha Hl; [easy|]. assert (X := H b (or_introl eq_refl)). assert (L := nsum_le f g l (fun x Hx => H x (or_intror Hx))). unfold nsum in *.
  destruct Ha as [->|Ha]; [lia|]. assert (Y := IH (fun x Hx => H x (or_intror Hx)) Ha Hl). lia.
Qed.
Lemma nsum_eq {A} (f g : A -> nat) l : (forall x, In x l -> f x = g x) -> nsum (map f l) = nsum (map g l).
Proof. intros H. f_equal. apply map_ext_in. auto. Qed.

Lemma in_procs p : 0 <= p < N -> In (Z.to_nat p) procs.
Proof. intros H. apply in_seq. lia. Qed.

Lemma ask_gw lid x x' ms : ask name q N lid x = Ok (x', ms) -> sq_prog x' = sq_prog x /\ (wph (sq_ph x') <= Z.to_nat (N - lid) + 1)%nat /\ (lid >= N -> wph (sq_ph x') = 0%nat).
Proof.
  unfold ask. destruct (lid <? N) eqn:E.
  - destruct (kvs_allow_cmd name); cbn [obind]; try discriminate. intros [= <- <-]. cbn. split; auto. split; lia.
  - destruct (upd_cmds _); cbn [obind]; try discriminate. unfold sync_leave. destruct (sync_end _ _); cbn [obind]; try discriminate. intros [= <- <-]. cbn. split; auto. split; auto. lia.
Qed.

Lemma go_gw p x x' ms : go name q N p x = Ok (Some (x', ms)) -> (gw x' < gw x)%nat.
Proof.
  unfold go, gw, nsum. destruct (sq_ph x) as [| | |lid] eqn:Ep.
  - destruct (sq_prog x) as [|[o|] r]; [discriminate| |].
    + destruct (exec_op _ _ _); cbn [obind]; try discriminate. intros [= <- <-]. cbn. lia.
    + unfold cassert. destruct (negb _); [|discriminate]. destruct (match sq_name x with Some n => _ | None => true end); [|discriminate].
      destruct (p >? 0).
      * intros [= <- <-]. cbn. lia.
      * destruct (ask _ _ _ _ _) as [[y m]| | | |] eqn:Ea; cbn [obind]; try discriminate. intros [= <- <-]. destruct (ask_gw _ _ _ _ Ea) as (A1 & A2 & A3). rewrite A1. clear A1 A3. remember (wph (sq_ph y)) as wy. cbn. unfold nsum in *. lia.
  - destruct (sq_name x) as [n|]; [|discriminate]. unfold cassert. destruct (same_name name n); [|discriminate]. destruct (upd_cmds _); cbn [obind]; try discriminate. intros [= <- <-]. cbn. lia.
  - destruct (waits x); [discriminate|]. unfold sync_leave. destruct (sync_end _ _); cbn [obind]; try discriminate. intros [= <- <-]. cbn. lia.
  - destruct (waits x); [discriminate|]. destruct (ask _ _ _ _ _) as [[y m]| | | |] eqn:Ea; cbn [obind]; try discriminate. intros [= <- <-]. destruct (ask_gw _ _ _ _ Ea) as (A1 & A2 & A3). rewrite A1. remember (wph (sq_ph y)) as wy. cbn.
    destruct (Z_lt_ge_dec (lid + 1) N); [lia|]. rewrite A3 by lia. lia.
Qed.

Lemma got_gw l x m x' : got_kvs l x m = Ok x' -> sq_prog x' = sq_prog x /\ sq_ph x' = sq_ph x.
Proof.
  unfold got_kvs. destruct (skip1 _ _) as [|c t]; [intros [= <-]; auto|]. destruct (c =? 97); [|destruct (c =? 99); [|destruct (c =? 100); [|intros [= <-]; auto]]].
  - unfold got_kvs_allow. destruct (negb _); [intros [= <-]; auto|]. destruct (scan_word _ _) as [[? ?]|]; [|intros [= <-]; auto]. destruct (scan_word _ _) as [[? ?]|]; [|intros [= <-]; auto].
    unfold cassert. destruct (match sq_name x with None => true | Some _ => false end); [|discriminate]. intros [= <-]. auto.
  - unfold got_kvs_changes. destruct (scan_word _ _) as [[? ?]|]; [|intros [= <-]; auto]. destruct (scan_dec _) as [[? ?]|]; [|intros [= <-]; auto].
    destruct (negb _); [discriminate|]. unfold cassert. destruct (sq_chg x =? -1); [|discriminate]. destruct (sq_rcv x =? 0); [|discriminate]. intros [= <-]. auto.
  - unfold got_kvs_data. destruct (scan_word _ _) as [[? ?]|]; [|intros [= <-]; auto]. destruct (scan_word _ _) as [[? ?]|]; [|intros [= <-]; auto]. destruct (take_line _ _); [intros [= <-]; auto|].
    unfold cassert. destruct (sq_kvs x); [|discriminate]. destruct (_ >? _); [|discriminate]. destruct (_ <? _); [|discriminate]. destruct (set_updated _ _ _); cbn [obind]; try discriminate. intros [= <-]. auto.
Qed.

Lemma step_measure s p a s' : 0 <= p < N -> act_ok N a -> sstep name q N s p a = Ok (Some s') -> (meG s' < meG s)%nat \/ (meG s' = meG s /\ (meM s' < meM s)%nat).
Proof.
  intros Hp Ha. unfold sstep. destruct a as [|r].
  - destruct (go _ _ _ _ _) as [[[x ms]|]| | | |] eqn:Eg; cbn [obind]; try discriminate. intros [= <-]. left. apply go_gw in Eg. unfold meG. cbn [sn_proc].
    apply nsum_lt with (a := Z.to_nat p); [|apply in_procs; auto|rewrite Z2Nat.id by lia; rewrite supd_same; auto].
    intros k _. destruct (Z.eq_dec (Z.of_nat k) p) as [->|Hn]; [rewrite supd_same; lia|rewrite supd_other by auto; lia].
  - destruct (sn_wire s r p) as [|m w] eqn:Ew; [discriminate|]. destruct (got_kvs _ _ _) as [x| | | |] eqn:Eg; cbn [obind]; try discriminate. intros [= <-]. right. apply got_gw in Eg. destruct Eg as (G1 & G2). cbn in Ha. split.
    + apply nsum_eq. intros k _. cbn [sn_proc]. destruct (Z.eq_dec (Z.of_nat k) p) as [->|Hn]; [rewrite supd_same; unfold gw; rewrite G1, G2; auto|rewrite supd_other by auto; auto].
    + unfold meM. cbn [sn_wire]. assert (LE : forall a b, (length (supd2 (sn_wire s) r p w a b) <= length (sn_wire s a b))%nat).
      { intros a b. unfold supd2. destruct ((a =? r) && (b =? p)) eqn:E; auto. replace a with r by lia. replace b with p by lia. rewrite Ew. cbn. lia. }
      apply nsum_lt with (a := Z.to_nat p); [|apply in_procs; auto|].
      * intros b _. apply nsum_le. auto.
      * apply nsum_lt with (a := Z.to_nat r); [|apply in_procs; auto|]; auto. rewrite !Z2Nat.id by lia. rewrite supd2_same, Ew. cbn. lia.
Qed.
End Measure.

Lemma lex_ind (P : nat -> nat -> Prop) : (forall a b, (forall a' b', (a' < a)%nat \/ (a' = a /\ (b' < b)%nat) -> P a' b') -> P a b) -> forall a b, P a b.
Proof.
  intros H. assert (X : forall a, (forall a', (a' < a)%nat -> forall b, P a' b) -> forall b, P a b).
  { intros a IH b. induction b as [b IHb] using lt_wf_ind. apply H. intros a' b' [L|[-> L]]; auto. }
  intros a. induction a as [a IH] using lt_wf_ind. apply X. exact IH.
Qed.

Section Run.
Variable name : list Z.
Variable q : list kentry -> list kentry.
Variable N : Z.
Variable rounds : list round.
Hypothesis NF : NameFits name.
Hypothesis Q : is_qsort kvs_cmp q.
Hypothesis PF : PrefixFree CString.
Hypothesis HN : 1 <= N.
Hypothesis HRO : Forall (RoundOk N) rounds.
Hypothesis HSM : forall dn rds, rounds = dn ++ rds -> Small (common N dn).
Notation SInv := (SInv name N rounds).
Notation step := (sstep name q N).

Lemma quiet_done s : SInv s -> (forall p a, 0 <= p < N -> act_ok N a -> step s p a = Ok None) -> sdone N s = true.
Proof.
  intros (W1 & W2 & dn & rds & E & HM) HQ. assert (RO := rds_ok N rounds HRO dn rds E).
  assert (WE : forall a b, 0 <= a < N -> 0 <= b < N -> sn_wire s a b = []) by (intros a b Ha Hb; apply (step_msg_none name q N), HQ; auto).
  assert (GE : forall p, 0 <= p < N -> go name q N p (sn_proc s p) = Ok None) by (intros p Hp; apply step_go_none, HQ; cbn; auto).
  assert (LA : forall B rds l, 0 <= l < N -> ~ Late B rds l (sn_proc s l) []).
  { intros B rds' l Hl (L1 & _ & _ & _ & D & L2 & _). apply Rem_empty in L2. assert (X := go_none _ _ _ _ _ (GE l Hl)). rewrite L1 in X. destruct L2. congruence. }
  apply sdone_spec. destruct HM as [(M1 & M2 & M3)|HM].
  - destruct M2 as (R1 & R2 & h1 & h2 & R3 & R4 & R5). assert (X := go_none _ _ _ _ _ (GE 0 ltac:(lia))). rewrite R1 in X.
    assert (rds = []). { destruct rds as [|r rs]; auto. destruct R5 as (_ & R5). rewrite X in R5. destruct h2; discriminate. } subst rds.
    intros p Hp. destruct (Z.eq_dec p 0) as [->|Hp0]; auto. destruct (M3 p ltac:(lia)) as (C1 & C2 & C3). rewrite WE in C3 by lia. destruct C3 as [C3|[(_ & C3)|(_ & _ & C3)]].
    + exfalso. eapply LA; eauto.
    + split; [|apply C3]. assert (Y := go_none _ _ _ _ _ (GE p Hp)). destruct C3 as (Z1 & _). rewrite Z1 in Y. auto.
    + destruct C3 as (_ & r & rs & s0 & X1 & _). discriminate.
  - exfalso. destruct HM as (r & rs & lid & E1 & Hlid & H). cbv zeta in H. destruct H as (H1 & H2 & H3 & H4 & H5 & H6 & H7 & H8). destruct H8 as [(HT & _)|(_ & _ & D & HD & _)].
    + destruct HT as (_ & HT). rewrite WE in HT by lia. assert (Y := go_none _ _ _ _ _ (GE lid ltac:(lia))). destruct HT as [(_ & pre & T & _)|(T1 & _ & T3)]; [destruct pre; discriminate|].
      destruct T3 as [T3|[(_ & T3)|(_ & T3 & _)]].
      * eapply LA; eauto. lia.
      * destruct T3 as (Z1 & _ & h1 & h2 & _ & _ & Z2). rewrite Z1 in Y. rewrite E1 in Z2. destruct Z2 as (_ & Z2). rewrite Y in Z2. destruct h2; discriminate.
      * rewrite T3 in Y. congruence.
    + rewrite WE in HD by lia. apply Rem_empty in HD. assert (Y := go_none _ _ _ _ _ (GE 0 ltac:(lia))). rewrite H1 in Y. destruct HD. congruence.
Qed.

Lemma done_state s : SInv s -> sdone N s = true -> (forall a b, 0 <= a < N -> 0 <= b < N -> sn_wire s a b = []) /\
  forall p, 0 <= p < N -> RI (common N rounds) [] (sq_st (sn_proc s p)) /\ ks_sorted (sq_st (sn_proc s p)) = used (sq_st (sn_proc s p)).
Proof.
  intros (W1 & W2 & dn & rds & E & HM) HD. rewrite sdone_spec in HD. destruct HM as [(M1 & M2 & M3)|HM].
  2: { exfalso. destruct HM as (r & rs & lid & E1 & Hlid & H). cbv zeta in H. destruct H as (H1 & _). destruct (HD 0 ltac:(lia)). congruence. }
  assert (rds = []). { destruct M2 as (_ & _ & h1 & h2 & _ & _ & R5). destruct (HD 0 ltac:(lia)) as (D1 & _). destruct rds as [|r rs]; auto. destruct R5 as (_ & R5). rewrite D1 in R5. destruct h2; discriminate. }
  subst rds. rewrite app_nil_r in E. subst dn.
  assert (RR : forall p x, RunP (common N rounds) [] p x -> RI (common N rounds) [] (sq_st x) /\ ks_sorted (sq_st x) = used (sq_st x)).
  { intros p x (_ & _ & h1 & h2 & R3 & R4 & R5). destruct R5 as (-> & _). auto. }
  assert (CC : forall p, 1 <= p < N -> sn_wire s 0 p = [] /\ RunP (common N rounds) [] p (sn_proc s p)).
  { intros p Hp. destruct (M3 p Hp) as (_ & _ & C3). destruct (HD p ltac:(lia)) as (_ & D2). destruct C3 as [(C3 & _)|[C3|(_ & C3 & _)]]; try congruence. }
  split.
  - intros a b Ha Hb. destruct (Z.eq_dec a 0) as [->|Ha0].
    + destruct (Z.eq_dec b 0) as [->|Hb0]; auto. apply CC. lia.
    + destruct (Z.eq_dec b 0) as [->|Hb0]; auto. apply (M3 a). lia.
  - intros p Hp. destruct (Z.eq_dec p 0) as [->|Hp0]; [apply (RR 0); auto|]. apply (RR p). apply CC. lia.
Qed.

Lemma done_stuck s p a : SInv s -> sdone N s = true -> 0 <= p < N -> act_ok N a -> step s p a = Ok None.
Proof.
  intros HS HD Hp Ha. destruct (done_state s HS HD) as (W & _). rewrite sdone_spec in HD. destruct (HD p Hp) as (D1 & D2). unfold sstep. destruct a as [|r].
  - unfold go. rewrite D2, D1. reflexivity.
  - rewrite W by auto. reflexivity.
Qed.

Definition stuck_dec s p a : {step s p a = Ok None} + {step s p a <> Ok None}.
Proof. destruct (step s p a) as [[x|]| | | |]; auto; right; discriminate. Defined.

Lemma progress s : SInv s -> sdone N s = true \/ exists p a, 0 <= p < N /\ act_ok N a /\ step s p a <> Ok None.
Proof.
  intros HS.
  destruct (bex_dec (fun p => step s p Go <> Ok None)) with (a := 0) (b := N) as [(p & X1 & X2)|X]; [intros l; destruct (stuck_dec s l Go); auto|right; exists p, Go; cbn; auto|].
  destruct (bex_dec (fun p => exists r, 0 <= r < N /\ step s p (Msg r) <> Ok None)) with (a := 0) (b := N) as [(p & X1 & r & X2 & X3)|Y].
  - intros p. destruct (bex_dec (fun r => step s p (Msg r) <> Ok None)) with (a := 0) (b := N) as [Z0|Z0]; [intros l; destruct (stuck_dec s p (Msg l)); auto| |]; auto.
    right. intros (r & Hr & Z1). apply (Z0 r); auto.
  - right. exists p, (Msg r). cbn. auto.
  - left. apply quiet_done; auto. intros p a Hp Ha. destruct a as [|r].
    + destruct (stuck_dec s p Go); auto. exfalso. apply (X p); auto.
    + destruct (stuck_dec s p (Msg r)); auto. exfalso. apply (Y p); auto. exists r. auto.
Qed.

Section Sched.
Variable sched : nat -> Z * sact.
Hypothesis SO : sched_ok N sched.
Variable s0 : snet.
Hypothesis H0 : SInv s0.

Lemma srun_app s l1 l2 : srun name q N s (l1 ++ l2) = do x <- srun name q N s l1; srun name q N x l2.
Proof. revert s; induction l1 as [|[p a] l1 IH]; intros s; [reflexivity|]. cbn. destruct (sstep _ _ _ _ _ _); cbn; auto. Qed.
Lemma ssteps_S n : ssteps sched (S n) = ssteps sched n ++ [sched n].
Proof. unfold ssteps. rewrite seq_S, map_app. reflexivity. Qed.

Lemma run_inv n : exists s, srun name q N s0 (ssteps sched n) = Ok s /\ SInv s.
Proof.
  induction n as [|n IH]; [exists s0; auto|]. destruct IH as (s & E & HS). rewrite ssteps_S, srun_app, E. cbn [obind]. destruct (SO n) as (O1 & O2). destruct (sched n) as [p a]. cbn in *.
  destruct (step_ok name q N rounds NF Q PF HN HRO HSM s p a HS O1 O2) as [X|(s' & X & Y)]; rewrite X; cbn; eauto.
Qed.

Lemma run_S n s : srun name q N s0 (ssteps sched n) = Ok s -> SInv s ->
  srun name q N s0 (ssteps sched (S n)) = Ok s /\ step s (fst (sched n)) (snd (sched n)) = Ok None \/
  exists s', step s (fst (sched n)) (snd (sched n)) = Ok (Some s') /\ srun name q N s0 (ssteps sched (S n)) = Ok s' /\ SInv s' /\
    ((meG N s' < meG N s)%nat \/ (meG N s' = meG N s /\ (meM N s' < meM N s)%nat)).
Proof.
  intros E HS. rewrite ssteps_S, srun_app, E. cbn [obind]. destruct (SO n) as (O1 & O2). destruct (sched n) as [p a] eqn:Es. cbn in *.
  destruct (step_ok name q N rounds NF Q PF HN HRO HSM s p a HS O1 O2) as [X|(s' & X & Y)]; rewrite X; cbn; [left; auto|]. right. exists s'. repeat split; try apply Y; auto.
  eapply step_measure; eauto.
Qed.

Lemma run_done n s k : srun name q N s0 (ssteps sched n) = Ok s -> SInv s -> sdone N s = true -> srun name q N s0 (ssteps sched (n + k)) = Ok s.
Proof.
  intros E HS HD. induction k as [|k IH]; [rewrite Nat.add_0_r; auto|]. rewrite Nat.add_succ_r. destruct (run_S (n + k) s IH HS) as [(X & _)|(s' & X & _)]; auto.
  destruct (SO (n + k)%nat) as (O1 & O2). rewrite done_stuck in X; auto. discriminate.
Qed.

Lemma run_fair : sfair N sched -> exists n, forall k, (n <= k)%nat -> exists s, srun name q N s0 (ssteps sched k) = Ok s /\ sdone N s = true.
Proof.
  intros HF.
  assert (X : forall g m n s, meG N s = g -> meM N s = m -> srun name q N s0 (ssteps sched n) = Ok s -> SInv s ->
    exists n' s', srun name q N s0 (ssteps sched n') = Ok s' /\ SInv s' /\ sdone N s' = true).
  { intros g m. pattern g, m. apply lex_ind. clear g m. intros g m IH n s Eg Em E HS.
    destruct (progress s HS) as [D|(p & a & Hp & Ha & HE)]; [eauto|].
    assert (FK : exists k, (n <= k)%nat /\ sched k = (p, a)). { destruct (HF p n Hp) as (F1 & F2). destruct a as [|r]; [auto|]. apply F2. exact Ha. }
    destruct FK as (k & Hk & Ek).
    assert (Y : forall d, (d <= k - n)%nat -> srun name q N s0 (ssteps sched (n + d)) = Ok s \/ exists n' s', srun name q N s0 (ssteps sched n') = Ok s' /\ SInv s' /\
      ((meG N s' < meG N s)%nat \/ (meG N s' = meG N s /\ (meM N s' < meM N s)%nat))).
    { induction d as [|d IHd]; intros Hd; [rewrite Nat.add_0_r; auto|]. destruct (IHd ltac:(lia)) as [Y|Y]; auto. rewrite Nat.add_succ_r.
      destruct (run_S (n + d) s Y HS) as [(Z1 & _)|(s' & _ & Z2 & Z3 & Z4)]; [auto|]. right. exists (S (n + d)), s'. auto. }
    assert (YY : exists n' s', srun name q N s0 (ssteps sched n') = Ok s' /\ SInv s' /\ ((meG N s' < meG N s)%nat \/ (meG N s' = meG N s /\ (meM N s' < meM N s)%nat))).
    { destruct (Y (k - n)%nat (le_n _)) as [Z1|Z1]; auto. replace (n + (k - n))%nat with k in Z1 by lia. destruct (run_S k s Z1 HS) as [(_ & Z2)|(s' & _ & Z2 & Z3 & Z4)]; [|eauto].
      rewrite Ek in Z2. cbn in Z2. congruence. }
    destruct YY as (n' & s' & Z1 & Z2 & Z3). apply (IH (meG N s') (meM N s')) with (n := n') (s := s'); auto. rewrite <- Eg, <- Em. auto. }
  destruct (X _ _ 0%nat s0 eq_refl eq_refl eq_refl H0) as (n & s & E & HS & HD). exists n. intros k Hk. exists s. split; auto. replace k with (n + (k - n))%nat by lia. apply run_done; auto.
Qed.
End Sched.
End Run.
