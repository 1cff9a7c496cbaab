(* Processes with asynchronous messages at the same time: progress, end, result. *)
From Coq Require Import ZArith List Bool Lia ZifyBool ZifyNat Permutation.
From Verif Require Import Base Model_Space Model_Mem Model_Transition Model_Action Model_ActionTrans Model_ActionExec Model_Async Model_AsyncNet.
From Verif Require Import Proof_Prepare1.
From Verif Require Import Spec_ActionTrans Spec_Async Spec_AsyncNet Proof_Type Proof_Comb3 Proof_Async1 Proof_Async2 Proof_Async3 Proof_AsyncNet1 Proof_AsyncNet2.
Import ListNotations.
Open Scope Z_scope.

(* ---- counting ---- *)
Lemma count_le (f g : Z -> bool) q : forall L, NoDup L -> (forall k, k <> q -> g k = f k) -> (length (filter g L) <= S (length (filter f L)))%nat.
Proof.
  induction L as [|a L IH]; intros ND H; [simpl; lia|]. inversion ND as [|? ? X Y]; subst. cbn [filter]. destruct (Z.eq_dec a q) as [->|Na].
  - assert (E : filter g L = filter f L) by (apply filter_ext_in; intros k Hk; apply H; intros ->; auto). rewrite E. destruct (f q), (g q); simpl; lia.
  - specialize (IH Y H). rewrite (H a Na). destruct (f a); simpl; lia.
Qed.
Lemma count_lt (f g : Z -> bool) q : forall L, In q L -> f q = true -> g q = false -> (forall k, k <> q -> g k = f k) -> (length (filter g L) < length (filter f L))%nat.
Proof.
  assert (W : forall L, f q = true -> g q = false -> (forall k, k <> q -> g k = f k) -> (length (filter g L) <= length (filter f L))%nat).
  { induction L as [|a L IH]; intros F0 G0 H; [simpl; lia|]. specialize (IH F0 G0 H). cbn [filter]. destruct (Z.eq_dec a q) as [->|Na]; [rewrite F0, G0; simpl; lia|]. rewrite (H a Na). destruct (f a); simpl; lia. }
  induction L as [|a L IH]; intros I F0 G0 H; [destruct I|]. cbn [filter]. destruct (Z.eq_dec a q) as [->|Na].
  - rewrite F0, G0. specialize (W L F0 G0 H). simpl. lia.
  - destruct I as [I|I]; [congruence|]. specialize (IH I F0 G0 H). rewrite (H a Na). destruct (f a); simpl; lia.
Qed.
Definition total (f : Z -> nat) (L : list Z) : nat := fold_right Nat.add 0%nat (map f L).
Lemma total_lt f g p : forall L, In p L -> (g p < f p)%nat -> (forall k, k <> p -> g k = f k) -> (total g L < total f L)%nat.
Proof.
  assert (W : forall L, (g p < f p)%nat -> (forall k, k <> p -> g k = f k) -> (total g L <= total f L)%nat).
  { unfold total. induction L as [|a L IH]; intros G0 H; [simpl; lia|]. specialize (IH G0 H). cbn [map fold_right]. destruct (Z.eq_dec a p) as [->|Na]; [|rewrite (H a Na)]; lia. }
  unfold total in *. induction L as [|a L IH]; intros I G0 H; [destruct I|]. cbn [map fold_right]. destruct (Z.eq_dec a p) as [->|Na].
  - specialize (W L G0 H). lia.
  - destruct I as [I|I]; [congruence|]. specialize (IH I G0 H). rewrite (H a Na). lia.
Qed.
Definition ranks (N : Z) : list Z := map Z.of_nat (seq 0 (Z.to_nat N)).
Lemma in_ranks N p : In p (ranks N) <-> 0 <= p < N.
Proof.
  unfold ranks. rewrite in_map_iff. split.
  - intros (k & <- & H). apply in_seq in H. lia.
  - intros H. exists (Z.to_nat p). split; [lia|]. apply in_seq. lia.
Qed.

Definition pendb (v : node) (q : Z) : bool := match nd_rq v q with Some (NSend _ _ _) | Some (NRecv _ _ _ _) => true | _ => false end.
Lemma run_pend sz d p v v' : node_run sz d p v = Some v' -> length (nd_code v) = S (length (nd_code v')) /\ exists q, forall k, k <> q -> nd_rq v' k = nd_rq v k.
Proof.
  unfold node_run. destruct (nd_code v) as [|a r]; [discriminate|]. intros E.
  assert (D : match i_in (d p a), i_out (d p a) with None, None => Some (mkNode r (i_write (d p a) (nd_mem v) []) (nd_out v) (nd_rq v) (nd_got v)) | _, _ => None end = Some v' ->
    S (length r) = S (length (nd_code v')) /\ exists q : Z, forall k, k <> q -> nd_rq v' k = nd_rq v k).
  { clear E. destruct (i_in (d p a)), (i_out (d p a)); try discriminate. intros X. injection X as <-. split; auto. exists 0. auto. }
  destruct a; try (apply D; exact E); clear D.
  - injection E as <-. split; auto. exists 0. auto.
  - injection E as <-. split; auto. exists req. intros k Hk. cbn [nd_rq]. apply setz_ne. auto.
  - injection E as <-. split; auto. exists req. intros k Hk. cbn [nd_rq]. apply setz_ne. auto.
  - destruct (nd_rq v req) as [[| |]|]; try discriminate. injection E as <-. split; auto. exists 0. auto.
Qed.

Section Net.
  Variables (N sz : Z) (cx : Z -> actx) (d : Z -> apar -> instr) (rd wr : apar -> area) (l : Z -> list apar).
  Variable G : Z -> Z -> list Z.
  Variables (F s : Z -> pst).
  Hypothesis Hsz : 0 < sz.
  Hypothesis Hes : forall p, 0 <= p < N -> cx_es (cx p) = sz.
  Hypothesis safe : forall p, 0 <= p < N -> AsyncSafe (cx p) (d p) rd wr (l p).
  Hypothesis Hok : forall p, 0 <= p < N -> forall a, In a (l p) -> okpar N p (d p a) a.
  Hypothesis Hone : forall p, 0 <= p < N -> forall q, (cnt (bsend q) (l p) <= 1)%nat /\ (cnt (brecv q) (l p) <= 1)%nat.
  Hypothesis Hin : forall p, 0 <= p < N -> forall f, 0 <= f < N -> p_in (s p) (Peer f) = G f p.
  Hypothesis Hst : forall p, 0 <= p < N -> forall c, p_out (s p) c = [].
  Hypothesis Hrun : forall p, 0 <= p < N -> exec_is (map (sync_i (cx p) (d p)) (l p)) (s p) = Some (F p).
  Hypothesis Hout : forall p, 0 <= p < N -> forall t, 0 <= t < N -> p_out (F p) (Peer t) = G p t.
  Hypothesis Hend : forall p, 0 <= p < N -> forall f, 0 <= f < N -> p_in (F p) (Peer f) = [].
  Hypothesis Hkey : forall p dn b c f rest t, 0 <= p < N -> l p = dn ++ BufRecv b c f :: rest -> (0 < cnt (bsend t) rest)%nat -> mkey N f p <= mkey N p t.
  Notation SIM p := (Sim N p (cx p) (d p) wr (l p) G (s p)).
  Notation prog p := (async_prog (l p)).

  Lemma plp p : 0 <= p < N -> forall a, In a (l p) -> ~ is_mpi a.
  Proof. intros Hp. exact (sf_plain _ _ _ _ _ (safe p Hp)). Qed.
  Lemma both p t : 0 <= p < N -> 0 <= t < N -> cnt (bsend t) (l p) = cnt (brecv p) (l t).
  Proof.
    intros Hp Ht. pose proof (proj1 (Hone p Hp t)). pose proof (proj2 (Hone t Ht p)).
    assert (HS : forall p, 0 <= p < N -> p_mem (s p) = p_mem (s p) /\ forall c, p_out (s p) c = []) by (intros; split; auto).
    destruct (Nat.eq_dec (cnt (bsend t) (l p)) 0) as [E|E], (Nat.eq_dec (cnt (brecv p) (l t)) 0) as [E'|E']; try lia; exfalso.
    - pose proof (none_sent N p (cx p) (d p) (l p) _ G (F p) (Hok p Hp) (Hone p Hp) (s p) (Hin p Hp) (HS p Hp) (Hrun p Hp) (Hout p Hp) (Hend p Hp) t Ht E) as X.
      destruct (proj1 (cnt_pos (brecv p) (l t))) as (a & Ha & Fa); [lia|]. destruct a; try discriminate. cbn [brecv] in Fa. assert (from = p) by lia. subst from.
      pose proof (len_recv N sz t (cx t) (d t) rd wr (l t) _ G (F t) Ht Hsz (Hes t Ht) (safe t Ht) (Hok t Ht) (Hone t Ht) (s t) (Hin t Ht) (HS t Ht) (Hrun t Ht) (Hout t Ht) (Hend t Ht) p buf count Ha) as Y.
      rewrite X in Y. pose proof (Hok t Ht _ Ha) as (Z0 & _). simpl in Y. nia.
    - pose proof (none_recv N sz t (cx t) (d t) rd wr (l t) G (F t) Hsz (Hes t Ht) (safe t Ht) (Hok t Ht) (Hone t Ht) (s t) (Hin t Ht) (Hrun t Ht) (Hout t Ht) (Hend t Ht) p Hp E') as X.
      destruct (proj1 (cnt_pos (bsend t) (l p))) as (a & Ha & Fa); [lia|]. destruct a; try discriminate. cbn [bsend] in Fa. assert (to = t) by lia. subst to.
      pose proof (len_sent N sz p (cx p) (d p) (l p) _ G (F p) Hp Hsz (Hes p Hp) (Hok p Hp) (Hone p Hp) (s p) (Hin p Hp) (HS p Hp) (Hrun p Hp) (Hout p Hp) (Hend p Hp) t buf count Ha) as Y.
      rewrite X in Y. pose proof (Hok p Hp _ Ha) as (Z0 & _). simpl in Y. nia.
  Qed.

  Definition NetInv (x : anet) : Prop := forall p, 0 <= p < N -> exists pre A, SIM p pre A (x p).
  Definition mu (x : anet) (p : Z) : nat := (2 * length (nd_code (x p)) + length (filter (pendb (x p)) (start_ids (prog p))))%nat.

  Lemma net_filled x : NetInv x -> forall f t k bs, 0 <= f < N -> 0 <= t < N -> nth_error (nd_out (x f) t) k = Some (Filled bs) -> bs = G f t.
  Proof.
    intros HI f t k bs Hf Ht E. destruct (HI f Hf) as (pre & A & HS).
    exact (sim_filled N f (cx f) (d f) rd wr (l f) G (F f) (safe f Hf) (Hone f Hf) (s f) (Hin f Hf) (Hrun f Hf) (Hout f Hf) (Hend f Hf) pre A (x f) t k bs HS Ht E).
  Qed.
  Lemma pend_in x p q : 0 <= p < N -> NetInv x -> nd_rq (x p) q <> None -> In q (start_ids (prog p)).
  Proof.
    intros Hp HI Hq. destruct (HI p Hp) as (pre & A & HS). apply (n_ids _ _ _ _ _ _ _ _ _ _ _ HS) in Hq. rewrite (n_code _ _ _ _ _ _ _ _ _ _ _ HS). unfold start_ids in *. rewrite flat_map_app. apply in_or_app. auto.
  Qed.
  Lemma net_step strict e x y : NetInv x -> 0 <= at_proc e < N -> happen sz d strict e x = Some y -> NetInv y /\ (total (mu y) (ranks N) < total (mu x) (ranks N))%nat.
  Proof.
    intros HI He E. unfold happen in E.
    assert (K : forall v', (exists pre A, SIM (at_proc e) pre A v') -> y = setz x (at_proc e) v' ->
      (2 * length (nd_code v') + length (filter (pendb v') (start_ids (prog (at_proc e)))) < mu x (at_proc e))%nat -> NetInv y /\ (total (mu y) (ranks N) < total (mu x) (ranks N))%nat).
    { intros v' HS -> HL. split.
      - intros p Hp. unfold setz. destruct (p =? at_proc e) eqn:Ep; auto. assert (p = at_proc e) by lia. subst p. auto.
      - apply (total_lt _ _ (at_proc e)); [apply in_ranks; auto| |].
        + unfold mu at 1. rewrite setz_eq. exact HL.
        + intros k Hk. unfold mu. rewrite setz_ne by auto. auto. }
    destruct e as [p|p q|p q]; cbn [at_proc] in *; destruct (HI p He) as (pre & A & HS).
    - destruct (node_run sz d p (x p)) as [v'|] eqn:Er; [|discriminate]. injection E as <-. apply (K v'); auto.
      + destruct (sim_run N sz p (cx p) (d p) rd wr (l p) _ G (F p) He Hsz (Hes p He) (safe p He) (Hok p He) (Hone p He) (s p) (Hin p He) (conj eq_refl (Hst p He)) (Hrun p He) (Hout p He) (Hend p He) d (fun a => eq_refl) pre A (x p) v' HS Er) as (a & A' & _ & X). eauto.
      + destruct (run_pend _ _ _ _ _ Er) as (HL & q & Hq). unfold mu. rewrite HL.
        pose proof (count_le (pendb (x p)) (pendb v') q (start_ids (prog p)) (async_nodup (l p) (plp p He))) as X.
        assert ((length (filter (pendb v') (start_ids (prog p))) <= S (length (filter (pendb (x p)) (start_ids (prog p)))))%nat) by (apply X; intros k Hk; unfold pendb; rewrite Hq; auto). lia.
    - destruct (node_sent strict x p q) as [v'|] eqn:Er; [|discriminate]. injection E as <-.
      destruct (sim_sent N sz p (cx p) (d p) rd wr (l p) G (F p) He Hsz (Hes p He) (safe p He) (Hone p He) (s p) (Hin p He) (Hout p He) (Hend p He) pre A strict x q v' HS Er) as (A' & X & Ec).
      apply (K v'); eauto. rewrite Ec. unfold mu. apply Nat.add_lt_mono_l.
      unfold node_sent in Er. destruct (nd_rq (x p) q) as [[b n t| |]|] eqn:Eq; try discriminate. destruct (_ || _); [|discriminate]. injection Er as <-.
      apply (count_lt _ _ q); [apply (pend_in x); auto; congruence| | |]; unfold pendb; cbn [nd_rq]; [rewrite Eq; auto|rewrite setz_eq; auto|]. intros k Hk. rewrite setz_ne; auto.
    - destruct (node_recvd x p q) as [v'|] eqn:Er; [|discriminate]. injection E as <-.
      destruct (sim_recvd N sz p (cx p) (d p) rd wr (l p) _ G (F p) He Hsz (Hes p He) (safe p He) (Hone p He) (s p) (Hin p He) (conj eq_refl (Hst p He)) (Hout p He) (Hend p He) pre A x q v' HS (fun f k bs Hf => net_filled x HI f p k bs Hf He) Er) as (A' & X & Ec).
      apply (K v'); eauto. rewrite Ec. unfold mu. apply Nat.add_lt_mono_l.
      unfold node_recvd in Er. destruct (nd_rq (x p) q) as [[|b n f k|]|] eqn:Eq; try discriminate. destruct (nth_error _ _) as [[bs|]|]; try discriminate. destruct (_ <=? _); [|discriminate]. injection Er as <-.
      apply (count_lt _ _ q); [apply (pend_in x); auto; congruence| | |]; unfold pendb; cbn [nd_rq]; [rewrite Eq; auto|rewrite setz_eq; auto|]. intros j Hk. rewrite setz_ne; auto.
  Qed.

  (* ---- progress, also without buffering ---- *)
  Definition CanGo (x : anet) : Prop := exists e y, 0 <= at_proc e < N /\ happen sz d true e x = Some y.
  Lemma one_slot x p t q : 0 <= p < N -> NetInv x -> In (Waiting q) (nd_out (x p) t) -> nd_out (x p) t = [Waiting q] /\ cnt (bsend t) (l p) = 1%nat.
  Proof.
    intros Hp HI H. destruct (HI p Hp) as (pre & A & HS). pose proof (proj1 (Hone p Hp t)).
    pose proof (n_len _ _ _ _ _ _ _ _ _ _ _ HS t) as HL. pose proof (async_isend (l p) (plp p Hp) t) as X. rewrite (n_code _ _ _ _ _ _ _ _ _ _ _ HS), cnt_app in X.
    destruct (nd_out (x p) t) as [|y [|z r]]; [destruct H| |simpl in HL; lia]. destruct H as [->|[]]. split; auto. simpl in HL. lia.
  Qed.
  (* a process which is done or waits has started all receives *)
  Lemma got_all x p f : 0 <= p < N -> NetInv x -> nd_code (x p) = [] \/ (exists q r, nd_code (x p) = MpiWait q :: r) -> nd_got (x p) f = cnt (brecv f) (l p).
  Proof.
    intros Hp HI H. destruct (HI p Hp) as (pre & A & HS). rewrite (n_got _ _ _ _ _ _ _ _ _ _ _ HS), <- (async_irecv (l p) (plp p Hp)). pose proof (n_code _ _ _ _ _ _ _ _ _ _ _ HS) as Ec.
    destruct H as [H|(q & r & H)]; rewrite H in Ec.
    - rewrite Ec, app_nil_r. auto.
    - pose proof (wait_posted (l p) (plp p Hp) pre q r f Ec) as W. rewrite Ec, cnt_app, cnt_cons, W. cbn [irecv]. lia.
  Qed.
  Lemma head_cases x p : 0 <= p < N -> NetInv x -> CanGo x \/ nd_code (x p) = [] \/ exists q r, nd_code (x p) = MpiWait q :: r /\
    ((exists b n t, nd_rq (x p) q = Some (NSend b n t)) \/ (exists b n f k, nd_rq (x p) q = Some (NRecv b n f k))).
  Proof.
    intros Hp HI. destruct (HI p Hp) as (pre & A & HS). destruct (nd_code (x p)) as [|a r] eqn:Ec; auto.
    destruct (sim_head N sz p (cx p) (d p) rd wr (l p) G (safe p Hp) (Hok p Hp) (s p) d (fun a => eq_refl) pre A (x p) a r HS Ec) as [(v' & E)|(q & -> & H)].
    - left. exists (Run p), (setz x p v'). split; auto. unfold happen. rewrite E. auto.
    - right. right. exists q, r. auto.
  Qed.
  Lemma send_goes x p q t b n : 0 <= p < N -> NetInv x -> nd_rq (x p) q = Some (NSend b n t) -> CanGo x.
  Proof.
    intros Hp HI Eq. destruct (HI p Hp) as (pre & A & HS). assert (X := n_rq _ _ _ _ _ _ _ _ _ _ _ HS q). rewrite Eq in X. destruct X as (_ & _ & (Ht & _) & HW).
    destruct (one_slot x p t q Hp HI HW) as (Es & Ec1).
    destruct (head_cases x t Ht HI) as [?|C]; auto. assert (HG : nd_got (x t) p = 1%nat).
    { rewrite (got_all x t p Ht HI), <- both; auto. destruct C as [C|(q' & r & C & _)]; eauto. }
    exists (Sent p q). eexists. split; auto. unfold happen, node_sent. rewrite Eq, Es, HG. cbn [slot_of]. rewrite Z.eqb_refl. reflexivity.
  Qed.

  Definition wkey (x : anet) (p : Z) : Z :=
    match nd_code (x p) with
    | MpiWait q :: _ => match nd_rq (x p) q with Some (NRecv _ _ f _) => mkey N f p | _ => 0 end
    | _ => 0
    end.
  Lemma net_progress x : NetInv x -> AllEnded N x \/ CanGo x.
  Proof.
    intros HI. pose (U := filter (fun p => match nd_code (x p) with [] => false | _ => true end) (ranks N)).
    destruct U as [|u0 U0] eqn:EU.
    - left. intros p Hp. destruct (nd_code (x p)) eqn:Ec; auto. exfalso. assert (I : In p U) by (apply filter_In; rewrite in_ranks, Ec; auto). rewrite EU in I. destruct I.
    - right. destruct (least (wkey x) U) as (p & Hp & HL); [congruence|]. apply filter_In in Hp. destruct Hp as [Hp Np]. apply in_ranks in Hp.
      destruct (head_cases x p Hp HI) as [?|[Ec|(q & r & Ec & [(b & n & t & Eq)|(b & n & f & k & Eq)])]]; auto; [rewrite Ec in Np; discriminate|eapply send_goes; eauto|].
      destruct (HI p Hp) as (pre & A & HS). assert (X := n_rq _ _ _ _ _ _ _ _ _ _ _ HS q). rewrite Eq in X. destruct X as (_ & Hn & -> & (Hf & Nf) & b0 & c0 & Hi0).
      assert (C1 : cnt (brecv f) (l p) = 1%nat).
      { pose proof (proj2 (Hone p Hp f)). assert (0 < cnt (irecv f) (prog p))%nat by (apply cnt_pos; eexists; split; [exact Hi0|cbn [irecv]; apply Z.eqb_refl]). rewrite (async_irecv (l p) (plp p Hp)) in H0. lia. }
      assert (HG : nd_got (x p) f = 1%nat) by (rewrite (got_all x p f Hp HI); eauto).
      destruct (HI f Hf) as (pref & Af & HSf). destruct (nd_out (x f) p) as [|[bs|q'] o] eqn:Eo.
      + (* not sent yet *)
        pose proof (n_len _ _ _ _ _ _ _ _ _ _ _ HSf p) as L0. rewrite Eo in L0. cbn [length] in L0. pose proof (async_isend (l f) (plp f Hf) p) as Y. pose proof (n_code _ _ _ _ _ _ _ _ _ _ _ HSf) as Ecf.
        rewrite (both f p Hf Hp), C1, Ecf, cnt_app, <- L0 in Y.
        destruct (head_cases x f Hf HI) as [?|[E0|(q2 & r2 & E2 & [(b2 & n2 & t2 & Eq2)|(b2 & n2 & f3 & k2 & Eq2)])]]; auto; [rewrite E0 in Y; discriminate|eapply send_goes; eauto|].
        exfalso. rewrite E2 in Ecf. assert (Y2 : (0 < cnt (isend p) r2)%nat) by (rewrite E2, cnt_cons in Y; cbn [isend] in Y; lia).
        destruct (wait_before (l f) (plp f Hf) pref q2 r2 p Ecf Y2) as (dn & b3 & c3 & f2 & rest & El & -> & Hs).
        assert (X2 := n_rq _ _ _ _ _ _ _ _ _ _ _ HSf (msgs dn)). rewrite Eq2 in X2. destruct X2 as (_ & _ & _ & (Hf3 & Nf3) & b4 & c4 & Hi4).
        pose proof (irecv_at (l f) (plp f Hf) dn b3 c3 f2 rest b4 c4 f3 El Hi4) as ->.
        pose proof (Hkey f dn b3 c3 f2 rest p Hf El Hs) as K1.
        assert (K2 : wkey x p <= wkey x f) by (apply HL; apply filter_In; rewrite in_ranks, E2; auto).
        unfold wkey in K2. rewrite Ec, E2, Eq, Eq2 in K2. destruct (mkey_inj N f2 f f p); auto; lia.
      + assert (En : nth_error (nd_out (x f) p) 0 = Some (Filled bs)) by (rewrite Eo; auto). pose proof (net_filled x HI f p 0%nat bs Hf Hp En) as ->.
        exists (Recvd p q). eexists. split; auto. unfold happen, node_recvd. rewrite Eq, En, <- Hn, Z.leb_refl. reflexivity.
      + destruct (n_wait _ _ _ _ _ _ _ _ _ _ _ HSf p q') as (b2 & n2 & Eq2); [rewrite Eo; left; auto|]. eapply (send_goes x f); eauto.
  Qed.

  Lemma net_finish n : forall x, NetInv x -> (total (mu x) (ranks N) <= n)%nat -> exists ev z, Events N ev /\ arun sz d true ev x = Some z /\ AllEnded N z.
  Proof.
    induction n as [|n IH]; intros x HI Hn; (destruct (net_progress x HI) as [HE|(e & y & He & E)]; [exists [], x; split; [intros ? []|auto]|]);
      destruct (net_step true e x y HI He E) as (HY & HL); [lia|]. destruct (IH y HY) as (ev & z & H1 & H2 & H3); [lia|].
    exists (e :: ev), z. split; [intros a [<-|Ha]; auto|]. split; auto. cbn [arun]. rewrite E. auto.
  Qed.
  Lemma net_run strict : forall ev x y, NetInv x -> Events N ev -> arun sz d strict ev x = Some y -> NetInv y /\ (length ev + total (mu y) (ranks N) <= total (mu x) (ranks N))%nat.
  Proof.
    induction ev as [|e ev IH]; intros x y HI HE E; [injection E as <-; split; auto|]. cbn [arun] in E. destruct (happen sz d strict e x) as [x1|] eqn:E1; [|discriminate].
    destruct (net_step strict e x x1 HI (HE e (or_introl eq_refl)) E1) as (H1 & L1). destruct (IH x1 y H1 (fun a Ha => HE a (or_intror Ha)) E) as (H2 & L2). split; auto. cbn [length]. lia.
  Qed.

  Theorem net_ends x (Q : Z -> mem -> Prop) : NetInv x -> (forall p m, 0 <= p < N -> (forall a, m a = p_mem (F p) a) -> Q p m) -> AlwaysEndsAsync sz d N x Q.
  Proof.
    intros HI HQ. exists (total (mu x) (ranks N)). intros ev y HE E. destruct (net_run false ev x y HI HE E) as (HY & HL). split; [lia|]. split; [eapply net_finish; eauto|].
    intros HA. assert (EN : forall p, 0 <= p < N -> (forall q, nd_rq (y p) q = None \/ nd_rq (y p) q = Some NDone) /\ (forall x, nd_mem (y p) x = p_mem (F p) x) /\
      (forall f, nd_got (y p) f = cnt (brecv f) (l p)) /\ (forall t, length (nd_out (y p) t) = cnt (bsend t) (l p))).
    { intros p Hp. destruct (HY p Hp) as (pre & A & HS). exact (sim_end N p (cx p) (d p) rd wr (l p) G (F p) (safe p Hp) (s p) (Hrun p Hp) pre A (y p) HS (HA p Hp)). }
    split.
    - intros p t Hp Ht. destruct (EN p Hp) as (_ & _ & _ & X). destruct (EN t Ht) as (_ & _ & Y & _). rewrite X, Y. apply both; auto.
    - intros p Hp. destruct (EN p Hp) as (X & Y & _). split; [exact X|]. apply HQ; auto.
  Qed.

  Lemma start_inv code : (forall p, 0 <= p < N -> code p = prog p \/ prog p = MpiReq 0 :: code p) -> NetInv (astart code (fun p => p_mem (s p))).
  Proof.
    intros HC p Hp. pose proof (sim_start N p (cx p) (d p) wr (l p) _ G Hp (s p) (Hin p Hp) (conj eq_refl (Hst p Hp))) as S0. unfold astart.
    destruct (HC p Hp) as [->|E]; [eauto|]. rewrite E in S0.
    destruct (sim_run N sz p (cx p) (d p) rd wr (l p) _ G (F p) Hp Hsz (Hes p Hp) (safe p Hp) (Hok p Hp) (Hone p Hp) (s p) (Hin p Hp) (conj eq_refl (Hst p Hp)) (Hrun p Hp) (Hout p Hp) (Hend p Hp) d (fun a => eq_refl) _ _ _ (mkNode (code p) (p_mem (s p)) (fun _ => []) (fun _ => None) (fun _ => 0%nat)) S0 eq_refl) as (a & A' & _ & X). eauto.
  Qed.
End Net.
