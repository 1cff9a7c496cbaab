(* C54: invariant of all processes *)
From Coq Require Import ZArith List Bool Lia ZifyBool ZifyNat Sorted Permutation.
From Verif Require Import Base ListFacts Model_RangeList Model_KVS Model_SpaceStore Model_Tcp2 Model_Switch Spec_RangeList Spec_KVS Model_Tcp2Sync Spec_Tcp2Sync
  Proof_KVS Proof_KVS2 Proof_KVS3 Proof_KVS5 Proof_KVS6 Proof_KVS8 Proof_Tcp2Sync1.
Import ListNotations.
Open Scope Z_scope.

Lemma supd_same {A} (f : Z -> A) p v : supd f p v p = v.
Proof. unfold supd. rewrite Z.eqb_refl. auto. Qed.
Lemma supd_other {A} (f : Z -> A) p v r : r <> p -> supd f p v r = f r.
Proof. unfold supd. destruct (r =? p) eqn:E; auto. lia. Qed.
Lemma supd2_same {A} (f : Z -> Z -> A) a b v : supd2 f a b v a b = v.
Proof. unfold supd2. rewrite !Z.eqb_refl. auto. Qed.
Lemma supd2_other {A} (f : Z -> Z -> A) a b v p r : p <> a \/ r <> b -> supd2 f a b v p r = f p r.
Proof. unfold supd2. destruct ((p =? a) && (r =? b)) eqn:E; auto. lia. Qed.

Lemma post_wire p ms : forall w a b, post p ms w a b = w a b ++ (if a =? p then map snd (filter (fun m => fst m =? b) ms) else []).
Proof.
  induction ms as [|m ms IH]; intros w a b; cbn.
  - destruct (a =? p); rewrite app_nil_r; auto.
  - unfold post in *. cbn [fold_left]. rewrite IH. unfold supd2. destruct (a =? p) eqn:Ea; cbn [andb]; auto.
    rewrite (Z.eqb_sym b). destruct (fst m =? b) eqn:Eb; auto. assert (a = p) as -> by lia. assert (fst m = b) as E by lia. rewrite E. cbn [map]. rewrite <- app_assoc. reflexivity.
Qed.

Lemma bcast_filter n ms l : 1 <= l < Z.of_nat n + 1 ->
  map snd (filter (fun m : Z * list Z => fst m =? l) (flat_map (fun m => map (fun l => (Z.of_nat l, m)) (seq 1 n)) ms)) = ms.
Proof.
  intros Hl. induction ms as [|m ms IH]; [reflexivity|]. cbn [flat_map]. rewrite filter_app, map_app, IH. clear IH.
  assert (X : forall k a, Z.of_nat a <= l < Z.of_nat (a + k) -> map snd (filter (fun m : Z * list Z => fst m =? l) (map (fun l0 : nat => (Z.of_nat l0, m)) (seq a k))) = [m]).
  { assert (Y : forall k a, l < Z.of_nat a -> filter (fun m : Z * list Z => fst m =? l) (map (fun l0 : nat => (Z.of_nat l0, m)) (seq a k)) = []).
    { induction k as [|k IH]; intros a Ha; [reflexivity|]. cbn [seq map filter fst]. destruct (Z.of_nat a =? l) eqn:E; [lia|]. apply IH. lia. }
    induction k as [|k IH]; intros a Ha; [lia|]. cbn [seq map filter fst]. destruct (Z.of_nat a =? l) eqn:E.
    - rewrite Y by lia. reflexivity.
    - apply IH. lia. }
  rewrite X by lia. reflexivity.
Qed.
Lemma bcast_other n ms l : ~ 1 <= l < Z.of_nat n + 1 ->
  map snd (filter (fun m : Z * list Z => fst m =? l) (flat_map (fun m => map (fun l => (Z.of_nat l, m)) (seq 1 n)) ms)) = [].
Proof.
  intros Hl. induction ms as [|m ms IH]; [reflexivity|]. cbn [flat_map]. rewrite filter_app, map_app, IH, app_nil_r.
  assert (Y : forall k a, (Z.of_nat (a + k) <= l \/ l < Z.of_nat a) -> filter (fun m : Z * list Z => fst m =? l) (map (fun l0 : nat => (Z.of_nat l0, m)) (seq a k)) = []).
  { induction k as [|k IH']; intros a Ha; [reflexivity|]. cbn [seq map filter fst]. destruct (Z.of_nat a =? l) eqn:E; [lia|]. apply IH'. lia. }
  rewrite Y; [reflexivity|lia].
Qed.

(* ---------- the contents after a round ---------- *)

Definition RoundOk (N : Z) (r : round) : Prop := NoConflict N r /\ forall p, 0 <= p < N -> Forall SetFits (r p).
Definition after (N : Z) (B : kmap) (r : round) : kmap := fold_left map_op (all_ops N r) B.

Lemma last_set_app h1 h2 k : last_set (h1 ++ h2) k = match last_set h2 k with Some v => Some v | None => last_set h1 k end.
Proof. induction h1 as [|o h1 IH]; cbn [app last_set]; [destruct (last_set h2 k); auto|]. rewrite IH. destruct (last_set h2 k); auto. Qed.
Lemma last_set_flat {A} (f : A -> list kop) l k :
  match last_set (flat_map f l) k with Some v => exists p, In p l /\ last_set (f p) k = Some v | None => forall p, In p l -> last_set (f p) k = None end.
Proof.
  induction l as [|a l IH]; cbn [flat_map]; [intros p []|]. rewrite last_set_app. destruct (last_set (flat_map f l) k) as [v|].
  - destruct IH as (p & H1 & H2). exists p. split; [now right|auto].
  - destruct (last_set (f a) k) as [v|] eqn:E; [exists a; split; [now left|auto]|]. intros p [<-|Hp]; auto.
Qed.
Lemma all_ops_fits N r : RoundOk N r -> Forall SetFits (all_ops N r).
Proof.
  intros (_ & H). unfold all_ops. apply Forall_forall. intros o Ho. apply in_flat_map in Ho. destruct Ho as (p & Hp & Ho). apply in_seq in Hp.
  assert (X := H (Z.of_nat p) ltac:(lia)). rewrite Forall_forall in X. auto.
Qed.
Lemma after_set N r p k v B : RoundOk N r -> 0 <= p < N -> last_set (r p) k = Some v -> after N B r k = Some (v ++ [0]).
Proof.
  intros HR Hp Hv. unfold after. rewrite fold_last by (apply all_ops_fits; auto). unfold all_ops. assert (X := last_set_flat (fun p => r (Z.of_nat p)) (seq 0 (Z.to_nat N)) k).
  destruct (last_set (flat_map _ _) k) as [v'|].
  - destruct X as (p' & X1 & X2). apply in_seq in X1. destruct HR as (HC & _). rewrite (HC p (Z.of_nat p') k v v'); auto. lia.
  - rewrite <- (Z2Nat.id p), X in Hv; try lia; [discriminate|]. apply in_seq. lia.
Qed.
Lemma after_none N r k B : RoundOk N r -> (forall p, 0 <= p < N -> last_set (r p) k = None) -> after N B r k = B k.
Proof.
  intros HR H. unfold after. rewrite fold_last by (apply all_ops_fits; auto). unfold all_ops. assert (X := last_set_flat (fun p => r (Z.of_nat p)) (seq 0 (Z.to_nat N)) k).
  destruct (last_set (flat_map _ _) k) as [v'|]; auto.
  destruct X as (p' & X1 & X2). apply in_seq in X1. rewrite H in X2 by lia. discriminate.
Qed.
Lemma last_dec N r k : (exists p v, 0 <= p < N /\ last_set (r p) k = Some v) \/ (forall p, 0 <= p < N -> last_set (r p) k = None).
Proof.
  assert (X := last_set_flat (fun p => r (Z.of_nat p)) (seq 0 (Z.to_nat N)) k). destruct (last_set (flat_map _ _) k) as [v'|].
  - left. destruct X as (p' & X1 & X2). apply in_seq in X1. exists (Z.of_nat p'), v'. split; auto. lia.
  - right. intros p Hp. rewrite <- (Z2Nat.id p) by lia. apply X. apply in_seq. lia.
Qed.
Lemma after_mono N r k B : RoundOk N r -> B k <> None -> after N B r k <> None.
Proof.
  intros HR HB. destruct (last_dec N r k) as [(p & v & Hp & Hv)|H].
  - rewrite (after_set N r p k v B); auto. discriminate.
  - rewrite after_none; auto.
Qed.
Lemma after_chg N r p k B : RoundOk N r -> 0 <= p < N -> fold_left map_op (r p) B k <> B k -> after N B r k = fold_left map_op (r p) B k.
Proof.
  intros HR Hp. rewrite fold_last by (apply HR; auto). destruct (last_set (r p) k) eqn:E; [|congruence]. intros _. eapply after_set; eauto.
Qed.
Lemma after_same N r k B : RoundOk N r -> (forall p, 0 <= p < N -> fold_left map_op (r p) B k = B k) -> after N B r k = B k.
Proof.
  intros HR H. destruct (last_dec N r k) as [(p & v & Hp & Hv)|H']; [|apply after_none; auto].
  rewrite (after_set N r p k v B); auto. specialize (H p Hp). rewrite fold_last in H by (apply HR; auto). rewrite Hv in H. auto.
Qed.

(* ---------- messages on the way ---------- *)

Definition Rem (B : kmap) (x : sproc) (w : list (list Z)) (D : list (list Z * list Z)) : Prop :=
  (forall k v, In (k, v) D -> Fit k v /\ B k = Some v) /\ zlen D < 2 ^ 31 /\
  ((sq_chg x = -1 /\ sq_rcv x = 0 /\ w = cmsg (zlen D) :: map dmsg D) \/ (0 <= sq_rcv x /\ sq_chg x = sq_rcv x + zlen D /\ w = map dmsg D)).

Lemma Rem_done B x w D : Rem B x w D -> waits x = false -> D = [] /\ w = [].
Proof.
  intros (_ & _ & [(H1 & H2 & H3)|(H1 & H2 & H3)]) Hw; unfold waits in Hw; [lia|].
  destruct D as [|d D]; [auto|]. unfold zlen in H2. cbn [length] in H2. lia.
Qed.
Lemma Rem_empty B x D : Rem B x [] D -> D = [] /\ waits x = false.
Proof.
  intros (_ & _ & [(H1 & H2 & H3)|(H1 & H2 & H3)]); [discriminate|]. destruct D; [|discriminate]. split; auto. unfold waits, zlen in *. cbn in H2. lia.
Qed.

Definition flagged (s : store) (k : list Z) : Prop := exists v, look (ks_ent s) k = Some (v, true).
Definition inD (D : list (list Z * list Z)) (k : list Z) : Prop := exists v, In (k, v) D.
Lemma cstr_Fit k w : Fit k w -> exists v, w = v ++ [0] /\ cstr w = v /\ KeyFits k /\ ValueFits k v.
Proof. intros (v & -> & K & V). exists v. split; auto. split; auto. apply cstr_fit. eapply Fit_nz; eauto. Qed.

Lemma Rem_got l B x m w D : PrefixFree CString -> Rem B x (m :: w) D -> TS B (sq_st x) -> sq_kvs x = true ->
  exists x' D', got_kvs l x m = Ok x' /\ Rem B x' w D' /\ TS B (sq_st x') /\
    sq_prog x' = sq_prog x /\ sq_ph x' = sq_ph x /\ sq_kvs x' = true /\ sq_name x' = sq_name x /\
    (forall k, inD D k -> inD D' k \/ (seen (ks_ent (sq_st x')) k = B k /\ flagged (sq_st x') k)) /\
    (forall k, look (ks_ent (sq_st x')) k = look (ks_ent (sq_st x)) k \/ (seen (ks_ent (sq_st x')) k = B k /\ flagged (sq_st x') k)).
Proof.
  intros PF (H1 & H2 & H3) HT HK. destruct H3 as [(E1 & E2 & E3)|(E1 & E2 & E3)].
  - injection E3 as -> ->. unfold cmsg. rewrite got_changes; auto; [|unfold zlen in *; lia]. eexists; exists D. split; [reflexivity|]. cbn.
    split; [split; auto; split; auto; right; cbn; split; [lia|]; split; [lia|auto]|]. split; auto. do 4 (split; [auto|]). split; auto.
  - destruct D as [|[k v] D]; [discriminate|]. cbn [map] in E3. injection E3 as -> ->. destruct (H1 k v (or_introl eq_refl)) as (F & HB).
    destruct (cstr_Fit k v F) as (v0 & -> & C & KF & VF). unfold dmsg. cbn [fst snd]. rewrite C. unfold zlen in H2, E2. cbn [length] in H2, E2.
    rewrite got_data; auto; [|lia]. destruct (TS_set B (sq_st x) k v0 PF HT KF VF HB) as (s' & S1 & S2 & S3). rewrite S1. cbn [obind]. eexists; exists D. split; [reflexivity|]. cbn.
    assert (G : seen (ks_ent s') k = B k /\ flagged s' k).
    { unfold seen, flagged. rewrite S3. unfold upd_look. destruct (keq k k); [|congruence]. split; eauto. }
    split; [split; [intros; apply H1; now right|split; [unfold zlen; lia|right; cbn; split; [lia|]; split; [unfold zlen; lia|auto]]]|].
    split; auto. do 4 (split; [auto|]). split.
    + intros k' (v' & Hv'). destruct Hv' as [E|Hv']; [injection E as <- <-; auto|left; exists v'; auto].
    + intros k'. rewrite S3. unfold upd_look at 1. destruct (keq k' k) as [->|]; auto.
Qed.

(* ---------- the invariant ---------- *)

Section Inv.
Variable name : list Z.
Variable q : list kentry -> list kentry.
Variable N : Z.
Variable rounds : list round.

Section State.
Variable B : kmap.                 (* contents at the begin of the round of LID 0 *)
Variable rds : list round.         (* this round and the following ones *)

Definition Cur (l : Z) (h1 h2 : list kop) (pr : list kstep) : Prop :=
  match rds with
  | [] => h1 = [] /\ h2 = [] /\ pr = []
  | r :: rs => r l = h1 ++ h2 /\ pr = map SOp h2 ++ SSync :: program rs l
  end.
Definition RunP (l : Z) (x : sproc) : Prop :=
  sq_ph x = PUser /\ sq_kvs x = false /\ exists h1 h2, RI B h1 (sq_st x) /\ (h1 = [] -> ks_sorted (sq_st x) = used (sq_st x)) /\ Cur l h1 h2 (sq_prog x).
Definition InSync (l : Z) (x : sproc) : Prop :=
  sq_kvs x = true /\ exists r rs s, rds = r :: rs /\ sq_prog x = program rs l /\ sq_st x = sync_begin s /\ RI B (r l) s.
Definition Late (l : Z) (x : sproc) (w : list (list Z)) : Prop :=
  sq_ph x = PData /\ sq_kvs x = true /\ sq_prog x = program rds l /\ TS B (sq_st x) /\
  exists D, Rem B x w D /\ forall k, seen (ks_ent (sq_st x)) k = B k \/ inD D k.
(* a client which did not send its changes in this round *)
Definition CB (l : Z) (x : sproc) (w : list (list Z)) : Prop :=
  Late l x w \/ (w = [] /\ RunP l x) \/ (w = [] /\ sq_ph x = PAllow /\ InSync l x).
Definition Sent (l : Z) (x : sproc) : Prop := sq_ph x = PData /\ sq_name x = None /\ sq_chg x = -1 /\ sq_rcv x = 0 /\ InSync l x.
Definition CI (l : Z) (x : sproc) (w wb : list (list Z)) : Prop := wb = [] /\ sq_name x = None /\ CB l x w.
Definition Tok (l : Z) (x : sproc) (w wb : list (list Z)) : Prop :=
  wb = [] /\ ((sq_name x = None /\ exists pre, w = pre ++ [str_allow ++ name] /\ CB l x pre) \/ (sq_name x = Some name /\ w = [] /\ CB l x [])).

Definition Know (B' : kmap) (s : store) (P : list Z -> Prop) : Prop :=
  forall k, P k \/ (seen (ks_ent s) k = B' k /\ (B' k <> B k -> flagged s k)).
Definition MRun (s : snet) : Prop :=
  sq_name (sn_proc s 0) = None /\ RunP 0 (sn_proc s 0) /\ forall l, 1 <= l < N -> CI l (sn_proc s l) (sn_wire s 0 l) (sn_wire s l 0).
Definition MGather (s : snet) : Prop :=
  exists r rs lid, rds = r :: rs /\ 1 <= lid < N /\
    let x0 := sn_proc s 0 in
    sq_ph x0 = PGather lid /\ sq_kvs x0 = true /\ sq_name x0 = None /\ sq_prog x0 = program rs 0 /\ TS (after N B r) (sq_st x0) /\
    (forall l, 1 <= l < lid -> Sent l (sn_proc s l) /\ sn_wire s 0 l = [] /\ sn_wire s l 0 = []) /\
    (forall l, lid < l < N -> CI l (sn_proc s l) (sn_wire s 0 l) (sn_wire s l 0)) /\
    ((Tok lid (sn_proc s lid) (sn_wire s 0 lid) (sn_wire s lid 0) /\ sq_chg x0 = -1 /\ sq_rcv x0 = 0 /\
      Know (after N B r) (sq_st x0) (fun k => exists l, lid <= l < N /\ fold_left map_op (r l) B k <> B k)) \/
     (Sent lid (sn_proc s lid) /\ sn_wire s 0 lid = [] /\ exists D, Rem (after N B r) x0 (sn_wire s lid 0) D /\
      Know (after N B r) (sq_st x0) (fun k => inD D k \/ exists l, lid < l < N /\ fold_left map_op (r l) B k <> B k))).
End State.

Definition SInv (s : snet) : Prop :=
  (forall a b, a <> 0 -> b <> 0 -> sn_wire s a b = []) /\ sn_wire s 0 0 = [] /\
  exists dn rds, rounds = dn ++ rds /\ (MRun (common N dn) rds s \/ MGather (common N dn) rds s).
End Inv.
