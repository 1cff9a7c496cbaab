(* Property C57: switching a 1d container with the MPI backend and asynchronous messages *)
From Coq Require Import ZArith List Bool Lia ZifyBool ZifyNat Sorted Permutation.
From Verif Require Import Base ListFacts Model_Space Model_Mem Model_Type Model_RangeList Model_Layout Model_Partitioner Model_Group Model_Transition Model_Data Model_Action Model_ActionTrans Model_ActionExec Model_ActionExec2 Model_Net Model_Switch Model_MpiPrepare Model_Async Model_AsyncNet.
From Verif Require Import Proof_RangeList Proof_Partitioner2 Proof_Trans1 Proof_Trans2 Proof_Trans3 Proof_Comb1 Proof_Switch8 Proof_Switch9.
From Verif Require Import Proof_Prepare1 Proof_Prepare2 Proof_Prepare3 Proof_Prepare4 Proof_Prepare5 Proof_Prepare6 Proof_Prepare7.
From Verif Require Import Spec_Space Spec_RangeList Spec_Partitioner Spec_Type Spec_Layout Spec_Data Spec_Transition Spec_Action Spec_ActionTrans Spec_Async Spec_Reduce Spec_Net Spec_Switch Spec_MpiPrepare Spec_AsyncNet.
From Verif Require Import Proof_Data Proof_Data3 Proof_Type Proof_Comb4 Proof_Net Proof_Switch1 Proof_Switch4 Proof_Switch10 Proof_CopyArea Proof_AsyncNet1 Proof_AsyncNet2 Proof_AsyncNet3.
From Verif Require Import Prop_Partitioner Prop_Layout Prop_Transition Prop_Data Prop_Reduce Prop_Switch Prop_Tcp2Exec Prop_Async Prop_Sched Prop_MpiPrepare.
Import ListNotations.
Open Scope Z_scope.

Definition topar (q : Z) (p : apar) : bool := to_q q (mkAct 0 p).
Definition frompar (q : Z) (p : apar) : bool := from_q q (mkAct 0 p).
Lemma to_cnt q L : length (filter (to_q q) L) = cnt (topar q) (map a_par L).
Proof. unfold cnt. induction L as [|[r p] L IH]; auto. cbn [map filter a_par]. unfold topar at 1. change (to_q q (mkAct 0 p)) with (to_q q (mkAct r p)). destruct (to_q q (mkAct r p)); simpl; auto. Qed.
Lemma from_cnt q L : length (filter (from_q q) L) = cnt (frompar q) (map a_par L).
Proof. unfold cnt. induction L as [|[r p] L IH]; auto. cbn [map filter a_par]. unfold frompar at 1. change (from_q q (mkAct 0 p)) with (from_q q (mkAct r p)). destruct (from_q q (mkAct r p)); simpl; auto. Qed.
Lemma cnt_ext f g l : (forall a, In a l -> f a = g a) -> cnt f l = cnt g l.
Proof. intros H. unfold cnt. f_equal. apply filter_ext_in. auto. Qed.

Section One.
  Variables (N p : Z) (cx : actx) (place : Z -> Z) (T : dtype) (oth : apar -> instr) (F : list action).
  Hypothesis Hp : 0 <= p < N.
  Hypothesis HP : Prepared (peer_ok N p) F.
  Notation l := (map a_par F).
  Notation D := (local_i cx place T oth).

  Lemma f_plain a : In a l -> plain a.
  Proof. intros Ha. apply in_map_iff in Ha as (b & <- & Hb). apply (pp_plain _ _ HP). auto. Qed.
  Lemma f_mpi a : In a l -> ~ is_mpi a.
  Proof. intros Ha. apply f_plain in Ha. destruct a; simpl in *; tauto. Qed.
  Lemma f_ok a : In a l -> okpar N p (D a) a.
  Proof.
    intros Ha. pose proof (f_plain a Ha) as P. apply in_map_iff in Ha as (b & <- & Hb). destruct (pp_one _ _ HP) as (rm & B). specialize (B b).
    destruct b as [r a]. cbn [a_par] in *. destruct a; simpl in P; try tauto; cbn [okpar].
    - split; auto. apply (B (KS to) Hb eq_refl).
    - split; auto. apply (B (KR from) Hb eq_refl).
    - split; [simpl; tauto|]. split; reflexivity.
    - split; [simpl; tauto|]. split; reflexivity.
  Qed.
  Lemma f_sync : map (sync_i cx D) l = map (den2 cx place T oth) F.
  Proof.
    rewrite map_map. apply map_ext_in. intros [r a] Ha. assert (P : plain a) by (apply f_plain; apply in_map_iff; exists (mkAct r a); auto). destruct a; simpl in P; try tauto; reflexivity.
  Qed.
  Lemma f_cnt q : (cnt (bsend q) l <= 1)%nat /\ (cnt (brecv q) l <= 1)%nat.
  Proof.
    destruct (one_message N p F HP q) as [A B]. rewrite to_cnt in A. rewrite from_cnt in B. split.
    - rewrite (cnt_ext _ (topar q)); auto. intros a Ha. apply f_plain in Ha. destruct a; simpl in Ha; try tauto; reflexivity.
    - rewrite (cnt_ext _ (frompar q)); auto. intros a Ha. apply f_plain in Ha. destruct a; simpl in Ha; try tauto; reflexivity.
  Qed.
  Lemma f_safe : by_round F -> ForallOrdPairs (Asy cx) F -> AsyncSafe cx D prd pwr l.
  Proof.
    intros HR HA. constructor.
    - exact f_mpi.
    - intros a Ha S R. apply f_plain in Ha. unfold local_i. apply copy_frame. destruct a; simpl in Ha; try tauto; try (exfalso; eapply S; reflexivity); try (exfalso; eapply R; reflexivity); eauto.
    - intros a Ha. apply f_plain in Ha. destruct a; simpl in Ha; auto; lia.
    - assert (P : forall a, In a F -> plain (a_par a)) by (intros; apply (pp_plain _ _ HP); auto). clear HP. induction HA as [|a L Ha HA IH]; cbn [map]; [constructor|]. inversion HR as [|? ? HR' Hr]; subst.
      constructor; [|apply IH; auto; intros; apply P; right; auto]. apply Forall_forall. intros y Hy. apply in_map_iff in Hy as (b & <- & Hb). rewrite Forall_forall in Ha, Hr. specialize (Ha b Hb). specialize (Hr b Hb).
      destruct Ha as [(I1 & I2 & I3)|[(H1 & H2 & H3)|(H1 & _)]]; [| |lia].
      + split; [auto|]. intros b0 c f E. split; auto. split; [intros z Z1 Z2; exact (I2 z Z2 Z1)|].
        specialize (P a (or_introl eq_refl)). destruct (a_par a); simpl in P; try tauto; try (right; cbn; congruence). destruct (Z.eq_dec from f) as [->|Nf]; [left; eauto|right; cbn; congruence].
      + split; [intros b0 c t E; exfalso; rewrite E in H2; exact H2|]. intros b0 c f E. exfalso. rewrite E in H3. exact H3.
  Qed.
  Lemma f_key dn b c f rest t : key_order N p F -> l = dn ++ BufRecv b c f :: rest -> (0 < cnt (bsend t) rest)%nat -> mkey N f p <= mkey N p t.
  Proof.
    intros K. clear HP. revert dn. induction K as [|a L K IH Ha]; intros dn E Hc; [destruct dn; discriminate|]. destruct dn as [|x dn]; injection E as E1 E.
    - apply cnt_pos in Hc as (y & Hy & By). rewrite <- E in Hy. apply in_map_iff in Hy as (u & <- & Hu). rewrite Forall_forall in Ha.
      destruct (a_par u) eqn:Eu; try discriminate. cbn [bsend] in By. assert (to = t) by lia. subst to.
      apply (Ha u Hu (KR f) (KS t)); [rewrite E1; reflexivity|rewrite Eu; reflexivity].
    - eapply IH; eauto.
  Qed.

  (* the sequence to execute *)
  Lemma f_async q : is_qsort cmp_rounds q -> by_round F -> (forall a, In a F -> a_round a <= 5) ->
    exists l1 ch r, async F = Ok l1 /\ sort_rounds q (snd l1) = Ok (ch, r) /\ (map a_par r = async_prog l \/ async_prog l = MpiReq 0 :: map a_par r) /\ OneMessage r.
  Proof.
    intros Q HR HL. assert (R : forall a, In a F -> 0 <= a_round a < 253) by (intros a Ha; pose proof (pp_plain _ _ HP a Ha); specialize (HL a Ha); lia).
    assert (NN : filter not_nop F = F) by (clear - HP; assert (H : forall a, In a F -> not_nop a = true) by (intros a Ha; apply plain_nop; apply (pp_plain _ _ HP a Ha)); revert H; clear; induction F as [|a L IH]; intros H; auto; cbn [filter]; rewrite (H a (or_introl eq_refl)); f_equal; apply IH; intros; apply H; right; auto).
    destruct (existsb is_bufmsg F) eqn:Ex.
    - apply existsb_exists in Ex. destruct (C33_sequence q F Q HR Ex R) as (l1 & ch & r & E1 & E2 & E3). rewrite NN in E3.
      exists (true, l1), ch, r. split; auto. split; auto. split; auto. intros k. rewrite to_cnt, from_cnt, E3. destruct (f_cnt k) as [A B].
      rewrite (cnt_ext (topar k) (isend k)), (cnt_ext (frompar k) (irecv k)); [rewrite (async_isend l f_mpi), (async_irecv l f_mpi); auto| |];
        intros a Ha; destruct (async_in l f_mpi a Ha) as [(n & ->)|[(b & c & f & i & -> & _)|[(b & c & t & i & -> & _)|[(i & ->)|(_ & M & S1 & R1)]]]]; auto;
        destruct a; auto; try (exfalso; apply M; exact Logic.I); try (exfalso; eapply S1; reflexivity); exfalso; eapply R1; reflexivity.
    - assert (NM : forall a, In a F -> is_bufmsg a = false). { intros a Ha. destruct (is_bufmsg a) eqn:E; auto. assert (existsb is_bufmsg F = true) by (apply existsb_exists; eauto). congruence. }
      rewrite (C33_unchanged F NM). destruct (C29_rounds q F Q) as (ch & r & f & E2 & S & K); [intros a Ha; specialize (R a Ha); lia|].
      assert (Er : r = map (renum f) F).
      { apply (Proof_Async3.shape f F r F); auto; [destruct ch; auto|]. intros a Ha. apply plain_nop. apply (pp_plain _ _ HP a Ha). }
      assert (Ep : map a_par r = l) by (rewrite Er, map_map; apply map_ext; intros [k a]; reflexivity).
      exists (false, F), ch, r. split; auto. split; auto. split.
      + right. rewrite Ep. unfold async_prog.
        assert (NM' : forall a, In a l -> is_m a = false) by (intros a Ha; apply in_map_iff in Ha as ([rr b] & <- & Hb); specialize (NM _ Hb); unfold is_bufmsg in NM; cbn [a_par] in *; destruct b; auto).
        assert (X : forall k q0, (forall a, In a k -> is_m a = false) -> filter is_m k = [] /\ posts q0 k = [] /\ body q0 k = k /\ waits q0 k = []).
        { clear. induction k as [|a k IH]; intros q0 H; auto. destruct (IH (nextq q0 a) (fun b Hb => H b (or_intror Hb))) as (A & B & C & D0). specialize (H a (or_introl eq_refl)).
          cbn [filter posts body waits]. rewrite H, A, B, C, D0. destruct a; try discriminate; auto. }
        destruct (X l 0 NM') as (X1 & X2 & X3 & X4). rewrite X1, X2, X3, X4, app_nil_r. reflexivity.
      + intros k. rewrite to_cnt, from_cnt, Ep, <- to_cnt, <- from_cnt. apply (one_message N p F HP).
  Qed.
End One.

Theorem C57_async : forall d qb N fl tl red x rd qs b1 b2 b3,
  0 < dc_es d -> dc_map0 d = None -> Good1d (dc_space d) N fl tl -> c_qsort rb_cmp qb ->
  (forall p, 0 <= p < N -> Ready d qb N fl tl red p (x p)) -> OneOwner fl tl ->
  (forall p, 0 <= p < N -> Moved (pc_ops (x p)) * dc_es d < 2 ^ 32) -> (forall p, 0 <= p < N -> SortsOk p (qs p)) ->
  exists t cx s,
    (forall p, 0 <= p < N ->
       mpi_switch_start rd true (qs p) (b1 p) (b2 p) (b3 p) d N p (pc_addr (x p)) (pc_ops (x p)) (Some (pc_old (x p))) (pc_next (x p)) = Ok (t p, cx p, s p) /\
       OneMessage (as_acts (s p)) /\ (as_bufs (s p) = [] \/ exists n, as_bufs (s p) = [(b1 p, n)] /\ 0 < n <= Moved (pc_ops (x p)) * dc_es d)) /\
    ((forall p, 0 <= p < N -> BuffersApart (as_bufs (s p)) (blocks (pc_old (x p)) ++ blocks (t p))) ->
     forall place T oth,
     AlwaysEndsAsync (dc_es d) (fun p => local_i (cx p) (place p) T (oth p)) N (astart (fun p => map a_par (as_acts (s p))) (fun p => pc_mem (x p)))
       (fun p m => SwitchDone d fl tl x (as_bufs (s p)) (t p) p m)).
Proof.
  intros d qb N fl tl red x rd qs b1 b2 b3 Hes Hm0 G Hq HX H1 HM HQ.
  destruct (choice_range (mkMl None None [], mkMl None None []) (fun p v => Alloc d tl p (pc_old (x p)) (pc_next (x p)) (pc_addr (x p)) (fst v) (snd v)) N) as (tF & HA).
  { intros p Hp. destruct (HX p Hp) as [X1 X2 X3 X4 X5 X6 X7].
    destruct (alloc_ok d Hes Hm0 N fl tl G p (pc_old (x p)) (pc_next (x p)) (pc_addr (x p)) X1 X3 X4 X5) as (t & F' & H). exists (t, F'). exact H. }
  set (t := fun p => fst (tF p)). set (F' := fun p => snd (tF p)). change (forall p, 0 <= p < N -> Alloc d tl p (pc_old (x p)) (pc_next (x p)) (pc_addr (x p)) (t p) (F' p)) in HA.
  clearbody t F'. clear tF. pose (cx := mcx d N x t F').
  destruct (choice_range ([], mkSeq [] 0 [] 0) (fun p Fs => let F := fst Fs in let s := snd Fs in mpi_prepare rd true (qs p) (b1 p) (b2 p) (b3 p) (cx p) (pc_ops (x p)) = Ok s /\
    (as_bufs s = [] \/ exists n, as_bufs s = [(b1 p, n)] /\ 0 < n <= Moved (pc_ops (x p)) * dc_es d) /\ Prepared (peer_ok N p) F /\ key_order N p F /\ by_round F /\ OneMessage (as_acts s) /\
    (map a_par (as_acts s) = async_prog (map a_par F) \/ async_prog (map a_par F) = MpiReq 0 :: map a_par (as_acts s)) /\
    (BuffersApart (as_bufs s) (blocks (pc_old (x p)) ++ blocks (t p)) -> ForallOrdPairs (Asy (cx p)) F /\ forall place T' oth place' oth' st,
       SameRun (bufs_area (as_bufs s)) (exec_is (map (den2 (cx p) place' (first_dt (dc_es d)) oth') (msgs d fl tl x t p)) st) (exec_is (map (den2 (cx p) place T' oth) F) st))) N) as (Fs & HS).
  { intros p Hp. destruct (HQ p Hp) as [Q1 Q2 Q3].
    destruct (prep_one d Hes N fl tl G red qb Hq x HX H1 t F' HA p (qs p) rd true (b1 p) (b2 p) (b3 p) Hp (HM p Hp) Q1 Q2 Q3) as (F & bufs & nce & E1 & E2 & E3 & E4 & E5 & E7 & E8 & E6).
    destruct (f_async N p (fun _ => 0) F Hp E4 (so_rounds2 (qs p)) Q3 E3 E7) as (l1 & ch & r & A1 & A2 & A3 & A4). rewrite A1 in E1. cbn [obind] in E1. rewrite A2 in E1. cbn [obind snd] in E1.
    exists (F, mkSeq r 0 bufs nce). cbn [fst snd as_acts as_bufs]. split; [exact E1|]. split; [exact E2|]. split; [exact E4|]. split; [exact E5|]. split; [exact E3|]. split; [exact A4|]. split; [exact A3|].
    intros HB. split; [apply E8; exact HB|]. intros place T' oth place' oth' st. apply E6; auto. }
  set (F := fun p => fst (Fs p)). set (s := fun p => snd (Fs p)).
  exists t, cx, s. split.
  { intros p Hp. destruct (HS p Hp) as (S1 & S2 & _ & _ & _ & S3 & _). split; [|split; [exact S3|exact S2]].
    destruct (al_run _ _ _ _ _ _ _ _ (HA p Hp)) as (t1 & R1 & R2).
    unfold mpi_switch_start. rewrite R1. cbn [obind fst snd]. rewrite R2. cbn [obind]. change (trans_ctx d N p (pc_ops (x p)) (Some (F' p)) (t p)) with (cx p). rewrite S1. reflexivity. }
  intros HB place T oth.
  destruct (base_local N (fun p => bufs_area (as_bufs (s p))) _ (fun p => map (den2 (cx p) (place p) T (oth p)) (F p)) _ _ (base_net d Hes N fl tl G red qb Hq x HX H1 t F' HA place oth)) as (GG & fin & [L1 L2 L3]).
  { intros p Hp st. destruct (HS p Hp) as (_ & _ & _ & _ & _ & _ & _ & S8). apply (S8 (HB p Hp)). }
  destruct (choice_state N _ L1) as (fs & Hfs).
  assert (PR : forall p, 0 <= p < N -> Prepared (peer_ok N p) (F p)) by (intros p Hp; apply (HS p Hp)).
  pose (s0 := fun p => given N GG p (mkP (pc_mem (x p)) (fun _ => []) (fun _ => []))).
  assert (Hrun : forall p, 0 <= p < N -> exec_is (map (sync_i (cx p) (local_i (cx p) (place p) T (oth p))) (map a_par (F p))) (s0 p) = Some (fs p)).
  { intros p Hp. rewrite (f_sync N p (cx p) (place p) T (oth p) (F p) Hp (PR p Hp)). apply (Hfs p Hp). }
  assert (Hin : forall p, 0 <= p < N -> forall f, 0 <= f < N -> p_in (s0 p) (Peer f) = GG f p).
  { intros p Hp f Hf. unfold s0, given. cbn [p_in app ext]. unfold inN. destruct ((0 <=? f) && (f <? N)) eqn:E; auto. lia. }
  assert (Hout : forall p, 0 <= p < N -> forall q, 0 <= q < N -> p_out (fs p) (Peer q) = GG p q).
  { intros p Hp q Hq'. destruct (Hfs p Hp) as (_ & [P1 P2 P3]). rewrite P3. auto. }
  assert (Hend : forall p, 0 <= p < N -> forall q, 0 <= q < N -> p_in (fs p) (Peer q) = []).
  { intros p Hp q Hq'. destruct (Hfs p Hp) as (_ & [P1 P2 P3]). rewrite P2. destruct (L3 p Hp) as (st0 & [Q1 Q2] & _ & Q4). rewrite Q4; auto. }
  assert (Safe : forall p, 0 <= p < N -> AsyncSafe (cx p) (local_i (cx p) (place p) T (oth p)) prd pwr (map a_par (F p))).
  { intros p Hp. destruct (HS p Hp) as (_ & _ & S3 & _ & S5 & _ & _ & S8). apply (f_safe N p); auto. apply (S8 (HB p Hp)). }
  assert (Hst : forall p, 0 <= p < N -> forall c, p_out (s0 p) c = []) by reflexivity.
  assert (Hok : forall p, 0 <= p < N -> forall a, In a (map a_par (F p)) -> okpar N p (local_i (cx p) (place p) T (oth p) a) a) by (intros p Hp a Ha; apply (f_ok N p (cx p) (place p) T (oth p) (F p)); auto).
  assert (Hone : forall p, 0 <= p < N -> forall q, (cnt (bsend q) (map a_par (F p)) <= 1)%nat /\ (cnt (brecv q) (map a_par (F p)) <= 1)%nat) by (intros p Hp q; apply (f_cnt N p (fun _ => 0) (F p)); auto).
  assert (Hesc : forall p, 0 <= p < N -> cx_es (cx p) = dc_es d) by reflexivity.
  apply (net_ends N (dc_es d) cx (fun p => local_i (cx p) (place p) T (oth p)) prd pwr (fun p => map a_par (F p)) GG fs s0); auto.
  - intros p dn b c f rest u Hp E Hc. apply (f_key N p (fun _ => 0) (F p) dn b c f rest u); auto. apply (HS p Hp).
  - apply (start_inv N (dc_es d) cx (fun p => local_i (cx p) (place p) T (oth p)) prd pwr (fun p => map a_par (F p)) GG fs s0); auto. intros p Hp. destruct (HS p Hp) as (_ & _ & _ & _ & _ & _ & S7 & _). exact S7.
  - intros p m Hp Hm. destruct (L3 p Hp) as (st0 & [Q1 Q2] & Q3 & Q4). destruct (Hfs p Hp) as (_ & [P1 P2 P3]).
    intros gen ini. destruct (Q2 (bufs_area (as_bufs (s p))) gen ini (mkP m (fun _ => []) (fun _ => []))) as (m' & fr & E & A1 & A2).
    { intros b z Hb Hz (e & E1 & E2). pose proof (HB p Hp e b E1 Hb) as W. unfold AwayB, Away in W. unfold region in Hz, E2. lia. }
    { intros z Hz. cbn [p_mem]. rewrite Hm, P1. auto. }
    exists m', fr. split; [exact E|]. split; [apply (al_good _ _ _ _ _ _ _ _ (HA p Hp))|]. split; [apply (al_cov _ _ _ _ _ _ _ _ (HA p Hp))|]. split; [exact A1|].
    intros a Ha Hb. apply A2; auto. intros (e & E1 & E2). exact (Hb e E1 E2).
Qed.
Print Assumptions C57_async.

(* ---------- a concrete case: the processes of C56_case, with asynchronous messages ---------- *)
Example C57_case : 0 < dc_es sw_d /\ dc_map0 sw_d = None /\ Good1d (dc_space sw_d) 3 mp_fl mp_tl /\ c_qsort rb_cmp ex_qb /\
  (forall p, 0 <= p < 3 -> Ready sw_d ex_qb 3 mp_fl mp_tl RO_Sum p (mp_x p)) /\ OneOwner mp_fl mp_tl /\
  (forall p, 0 <= p < 3 -> Moved (pc_ops (mp_x p)) * dc_es sw_d < 2 ^ 32) /\ (forall p, 0 <= p < 3 -> SortsOk p (mp_q p)) /\
  (forall p, 0 <= p < 3 -> mpi_switch_start true true (mp_q p) 5000 6000 7000 sw_d 3 p (pc_addr (mp_x p)) (pc_ops (mp_x p)) (Some (pc_old (mp_x p))) (pc_next (mp_x p)) = Ok (mp_go true p)) /\
  (forall p, 0 <= p < 3 -> BuffersApart (as_bufs (snd (mp_go true p))) (blocks (pc_old (mp_x p)) ++ blocks (fst (fst (mp_go true p))))).
Proof.
  split; [reflexivity|]. split; [reflexivity|]. split; [exact mp_good|]. split; [exact ex_qb_ok|]. split; [exact mp_ready|]. split; [exact mp_one|].
  split; [apply sw_three; vm_compute; reflexivity|]. split; [intros; apply mp_sorts|]. split; [|exact (mp_apart true)].
  apply sw_three; vm_compute; reflexivity.
Qed.
(* the sequence of process 0: starts the receive from process 1 before, and waits for its sends after everything else *)
Example C57_case_seq : map (fun p => match a_par p with CopyToBuf _ b => CopyToBuf [] b | q => q end) (as_acts (snd (mp_go true 0))) =
  [MpiReq 3; MpiIrecv 2000 2 1 2; CopyToBuf [] 5000; MpiIsend 5000 6 1 0; MpiIsend 1032 2 2 1; MpiWait 2; MpiWait 0; MpiWait 1].
Proof. vm_compute. reflexivity. Qed.
(* one execution without buffering: process 0 first starts all its messages; the message from process 1 to process 2 is sent last *)
Definition ma_end (strict : bool) : option anet := arun 4 (fun p => local_i (snd (fst (mp_go true p))) (fun _ => 0) (int_dt T_uint32) (fun _ => skip)) strict
  [Run 0; Run 0; Run 0; Run 0; Run 0; Run 1; Run 1; Run 1; Run 2; Run 2; Run 2; Sent 0 1; Sent 0 0; Recvd 2 0; Recvd 1 0; Run 1; Run 1; Run 1; Run 1;
   Sent 1 2; Recvd 0 2; Run 0; Run 0; Run 0; Sent 1 1; Recvd 2 1; Run 2; Run 2; Run 2; Run 1; Run 1]
  (astart (fun p => map a_par (as_acts (snd (mp_go true p)))) mp_mem).
Definition ma_final (p : Z) : option (list (Z * Z) * list (list Z)) :=
  match ma_end true with
  | None => None
  | Some y =>
    match do_transition false sw_d xini (fun _ _ _ => Ok (nd_mem (y p))) (pc_addr (mp_x p)) (pc_ops (mp_x p)) (Some (pc_old (mp_x p))) (pc_next (mp_x p)) (mp_mem p), nd_code (y p) with
    | Ok (t, m, _), [] => Some (blocks t, flat_map (fun k => map (fun i => mread m (m_base k + 4 * Z.of_nat i) 1) (seq 0 (Z.to_nat (m_count k)))) (ml_maps t))
    | _, _ => None
    end
  end.
Example C57_case_run : ma_final 0 = Some ([(2000, 8)], [[12]; [13]]) /\
  ma_final 1 = Some ([(2000, 48)], [[4]; [5]; [6]; [7]; [8]; [9]; [10]; [11]; [12]; [13]; [14]; [15]]) /\
  ma_final 2 = Some ([(2000, 48)], [[8]; [9]; [10]; [11]; [12]; [13]; [14]; [15]; [16]; [17]; [18]; [19]]).
Proof. vmsplit. Qed.
Print Assumptions C57_case.
Print Assumptions C57_case_seq.
Print Assumptions C57_case_run.
