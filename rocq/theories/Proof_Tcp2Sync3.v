(* C54: steps of single processes *)
From Coq Require Import ZArith List Bool Lia ZifyBool ZifyNat Sorted Permutation.
From Verif Require Import Base ListFacts Model_RangeList Model_KVS Model_SpaceStore Model_Tcp2 Model_Switch Spec_RangeList Spec_KVS Model_Tcp2Sync Spec_Tcp2Sync
  Proof_KVS Proof_KVS2 Proof_KVS3 Proof_KVS5 Proof_KVS6 Proof_KVS8 Proof_Tcp2Sync1 Proof_Tcp2Sync2.
Import ListNotations.
Open Scope Z_scope.

Definition option_list_dec (a b : option (list Z)) : {a = b} + {a <> b}.
Proof. decide equality. apply keq. Defined.

Section Steps.
Variable name : list Z.
Variable q : list kentry -> list kentry.
Variable N : Z.
Hypothesis NF : NameFits name.
Hypothesis Q : is_qsort kvs_cmp q.
Hypothesis PF : PrefixFree CString.
Hypothesis HN : 1 <= N.

Lemma same_name_ok : same_name name name = true.
Proof. unfold same_name. rewrite str_cmp_refl. auto. Qed.

Section One.
Variable B : kmap.
Variable rds : list round.
Hypothesis HR : Forall (RoundOk N) rds.

Lemma InSync_TS l x r rs : rds = r :: rs -> 0 <= l < N -> InSync B rds l x ->
  TS (after N B r) (sq_st x) /\ sq_prog x = program rs l /\ (forall k, seen (ks_ent (sq_st x)) k = fold_left map_op (r l) B k) /\
  (forall k, fold_left map_op (r l) B k <> B k -> flagged (sq_st x) k).
Proof.
  intros E Hl (_ & r' & rs' & s & E' & Hp & Hs & HI). rewrite E in E'. injection E' as <- <-. rewrite Hs.
  assert (RK : RoundOk N r) by (rewrite E in HR; inversion HR; auto).
  destruct (RI_begin B (r l) s (after N B r) HI) as (A1 & A2 & A3); auto.
  - apply RK; auto.
  - intros k v Hk. eapply after_set; eauto.
  - intros k Hk. apply after_mono; auto.
Qed.

Lemma CB_name l x w n : CB B rds l x w -> CB B rds l (with_name x n) w.
Proof.
  intros [H|[(H1 & H2)|(H1 & H2 & H3)]].
  - left. destruct H as (A1 & A2 & A3 & A4 & D & A5 & A6). unfold Late. cbn. do 4 (split; [auto|]). exists D. auto.
  - right; left. auto.
  - right; right. auto.
Qed.

Lemma CB_msg l x m w : CB B rds l x (m :: w) -> exists x', got_kvs 0 x m = Ok x' /\ CB B rds l x' w /\ sq_name x' = sq_name x.
Proof.
  intros [H|[(H1 & H2)|(H1 & H2 & H3)]]; try discriminate.
  destruct H as (A1 & A2 & A3 & A4 & D & A5 & A6).
  destruct (Rem_got 0 B x m w D PF A5 A4 A2) as (x' & D' & G1 & G2 & G3 & G4 & G5 & G6 & G7 & G8 & G9).
  exists x'. split; auto. split; auto. left. unfold Late. rewrite G5, G4. do 4 (split; [auto|]). exists D'. split; auto.
  intros k. destruct (A6 k) as [E|E].
  - destruct (G9 k) as [G|(G & _)]; auto. left. unfold seen in *. rewrite G. auto.
  - destruct (G8 k E) as [G|(G & _)]; auto.
Qed.

Lemma program_cons r rs l : program (r :: rs) l = map SOp (r l) ++ SSync :: program rs l.
Proof. unfold program. cbn [flat_map]. rewrite <- app_assoc. reflexivity. Qed.
Lemma Cur_start l : exists h2, Cur rds l [] h2 (program rds l).
Proof. unfold Cur. destruct rds as [|r rs]; [exists []; auto|]. exists (r l). split; auto. apply program_cons. Qed.

Lemma RI_run h1 h2 l x : RI B h1 (sq_st x) -> (h1 = [] -> ks_sorted (sq_st x) = used (sq_st x)) -> Cur rds l h1 h2 (sq_prog x) -> 0 <= l < N -> sq_ph x = PUser ->
  (rds = [] /\ sq_prog x = []) \/
  (exists o h2' s', h2 = o :: h2' /\ (exists tl, sq_prog x = SOp o :: tl /\ exec_op q (sq_st x) o = Ok s' /\ RI B (h1 ++ [o]) s' /\ Cur rds l (h1 ++ [o]) h2' tl)) \/
  (exists r rs, rds = r :: rs /\ sq_prog x = SSync :: program rs l /\ RI B (r l) (sq_st x)).
Proof.
  intros H1 Hso H2 Hl Hph. unfold Cur in *. destruct rds as [|r rs]; [left; tauto|]. destruct H2 as (E1 & E2). right.
  assert (RK : RoundOk N r) by (inversion HR; auto).
  destruct h2 as [|o h2].
  - right. exists r, rs. split; auto. rewrite E1, app_nil_r. auto.
  - left. assert (HO : SetFits o).
    { assert (X := proj2 RK l Hl). rewrite E1, Forall_app in X. destruct X as [_ X]. inversion X; auto. }
    destruct (RI_op q B h1 (sq_st x) o Q PF H1 HO) as (s' & S1 & S2). exists o, h2, s'. split; auto. exists (map SOp h2 ++ SSync :: program rs l). split; auto. split; auto. split; auto.
    split; auto. rewrite E1, <- app_assoc. auto.
Qed.

Lemma client_go l x w : (forall r rs, rds = r :: rs -> Small (after N B r)) -> 1 <= l < N -> CB B rds l x w -> (sq_name x = None \/ (sq_name x = Some name /\ w = [])) ->
  go name q N l x = Ok None \/
  (exists x', go name q N l x = Ok (Some (x', [])) /\ CB B rds l x' w /\ sq_name x' = sq_name x) \/
  (sq_name x = Some name /\ exists x' r rs D, rds = r :: rs /\ go name q N l x = Ok (Some (x', map (fun m => (0, m)) (cmsg (zlen D) :: map dmsg D))) /\
     Sent B rds l x' /\ zlen D < 2 ^ 31 /\ (forall k v, In (k, v) D -> Fit k v /\ after N B r k = Some v) /\ (forall k, fold_left map_op (r l) B k <> B k -> inD D k)).
Proof.
  intros HS Hl HC Hn. assert (El : (l >? 0) = true) by lia. destruct HC as [H|[(Hw & H)|(Hw & H1 & H2)]].
  - destruct H as (A1 & A2 & A3 & A4 & D & A5 & A6). unfold go. rewrite A1. destruct (waits x) eqn:Ew; auto. right; left.
    destruct (Rem_done _ _ _ _ A5 Ew) as (-> & ->).
    destruct (TS_end q B (sq_st x) Q A4) as (s' & S1 & S2 & S3).
    { intros k. destruct (A6 k) as [E|(v & [])]; auto. }
    unfold sync_leave. rewrite S1. cbn [obind]. eexists. split; [reflexivity|]. cbn. split; auto. right; left. split; auto. split; auto. split; auto. cbn. rewrite A3.
    destruct (Cur_start l) as (h2 & Hc). exists [], h2. auto.
  - destruct H as (A1 & A2 & h1 & h2 & A3 & A4 & A5). unfold go. rewrite A1. destruct (RI_run h1 h2 l x A3 A4 A5 ltac:(lia) A1) as [(E1 & E2)|[(o & h2' & s' & E1 & tl & E2 & E3 & E4 & E5)|(r & rs & E1 & E2 & E3)]]; rewrite E2.
    + auto.
    + right; left. rewrite E3. cbn [obind]. eexists. split; [reflexivity|]. cbn. split; auto. right; left. split; auto. split; auto. split; auto. cbn. exists (h1 ++ [o]), h2'.
      split; auto. split; auto. intros X. destruct h1; discriminate X.
    + right; left. rewrite A2, El. cbn [negb cassert].
      assert (Es : match sq_name x with Some n => same_name name n | None => true end = true) by (destruct Hn as [->|(-> & _)]; auto; apply same_name_ok).
      rewrite Es. cbn [cassert]. eexists. split; [reflexivity|]. cbn. split; auto. right; right. split; auto. split; auto. split; auto. exists r, rs, (sq_st x). cbn. auto.
  - unfold go. rewrite H1. destruct Hn as [->|(Hn & _)]; [auto|]. rewrite Hn. right; right. split; auto. rewrite same_name_ok. cbn [cassert].
    assert (X := H2). destruct X as (X1 & r & rs & s & X2 & _). destruct (InSync_TS l x r rs X2 ltac:(lia) H2) as (T1 & T2 & T3 & T4).
    destruct (upd_cmds_ok _ _ T1 (HS r rs X2)) as (D & U1 & U2 & U3 & U4). rewrite U1. cbn [obind]. eexists; exists r, rs, D. split; auto. split; [reflexivity|].
    split; [|split; [auto|split; [exact U4|]]].
    + unfold Sent. cbn. do 4 (split; [auto|]). destruct H2 as (_ & H2). split; auto.
    + intros k Hk. destruct (T4 k Hk) as (v & Hv). destruct T1 as (_ & _ & _ & T1). destruct (T1 k v true Hv) as (w0 & -> & _). exists w0. apply U3. auto.
Qed.

(* LID 0 goes on with [lid] *)
Lemma ask_more lid x : lid < N -> ask name q N lid x =
  Ok (mkSq (sq_prog x) (PGather lid) (sq_st x) (sq_kvs x) (sq_name x) (-1) 0, [(lid, str_allow ++ name)]).
Proof.
  intros Hl. unfold ask. destruct (lid <? N) eqn:E; [|lia]. unfold kvs_allow_cmd, into_msg.
  assert (X : zlen (str_allow ++ name) + 1 <= 100) by (unfold zlen; rewrite app_length; destruct NF as (_ & X & _); cbn [str_allow length]; lia).
  destruct (zlen (str_allow ++ name) + 1 >? 100) eqn:E'; [lia|]. reflexivity.
Qed.
Lemma ask_end x B' rs : Small B' -> sq_prog x = program rs 0 -> TS B' (sq_st x) -> Know B B' (sq_st x) (fun _ => False) -> sq_name x = None ->
  exists x' D, ask name q N N x = Ok (x', flat_map (fun m => map (fun l => (Z.of_nat l, m)) (seq 1 (Z.to_nat (N - 1)))) (cmsg (zlen D) :: map dmsg D)) /\
    RunP B' rs 0 x' /\ sq_name x' = None /\ zlen D < 2 ^ 31 /\ (forall k v, In (k, v) D -> Fit k v /\ B' k = Some v) /\ (forall k, B' k <> B k -> inD D k).
Proof.
  intros HS Hp HT HK Hn. unfold ask. destruct (N <? N) eqn:E; [lia|]. destruct (upd_cmds_ok _ _ HT HS) as (D & U1 & U2 & U3 & U4). rewrite U1. cbn [obind].
  destruct (TS_end q B' (sq_st x) Q HT) as (s' & S1 & S2 & S3); [intros k; destruct (HK k) as [[]|(X & _)]; auto|].
  unfold sync_leave. rewrite S1. cbn [obind]. eexists; exists D. split; [reflexivity|]. split; [|split; [auto|split; [auto|split; [exact U4|]]]].
  - split; auto. split; auto. cbn. rewrite Hp. unfold Cur. exists []. destruct rs as [|r rs].
    + exists []. auto.
    + exists (r 0). split; auto. split; auto. split; auto. apply program_cons.
  - intros k Hk. destruct (HK k) as [[]|(_ & X)]. destruct (X Hk) as (v & Hv). destruct HT as (_ & _ & _ & HT). destruct (HT k v true Hv) as (w0 & -> & _). exists w0. apply U3. auto.
Qed.

Lemma Sent_Late l x r rs D : rds = r :: rs -> 1 <= l < N -> Sent B rds l x -> zlen D < 2 ^ 31 -> (forall k v, In (k, v) D -> Fit k v /\ after N B r k = Some v) ->
  (forall k, after N B r k <> B k -> inD D k) -> Late (after N B r) rs l x (cmsg (zlen D) :: map dmsg D).
Proof.
  intros E Hl (H1 & H2 & H3 & H4 & H5) HD1 HD2 HD3. destruct (InSync_TS l x r rs E ltac:(lia) H5) as (T1 & T2 & T3 & T4). unfold Late. split; auto. split; [apply H5|]. split; auto. split; auto.
  exists D. split; [split; auto; split; auto|]. assert (RK : RoundOk N r) by (rewrite E in HR; inversion HR; auto).
  intros k. destruct (option_list_dec (after N B r k) (B k)) as [Eb|Eb]; [|auto]. left. rewrite T3.
  destruct (option_list_dec (fold_left map_op (r l) B k) (B k)) as [Ef|Ef]; [congruence|]. symmetry. apply after_chg; auto. lia.
Qed.
End One.
End Steps.
