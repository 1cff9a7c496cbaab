(* The invariant of the system, and its preservation by all events except the two steps of the master
   which handle requests *)
From Coq Require Import ZArith List Bool Lia ZifyBool ZifyNat.
From Verif Require Import Base Model_Space Model_RangeList Model_Partitioner Model_Resize Spec_Resize Proof_Resize1 Proof_Resize2 Proof_Resize3 Proof_Resize4 Proof_Resize5.
Import ListNotations.
Open Scope Z_scope.

Definition is_reg (s : pstate) : bool := match s with PsRegReceived | PsRegReceived2 => true | _ => false end.
Definition live (s : pstate) : bool := match s with PsDead | PsRegFinishing => false | _ => true end.
Definition is_conf (s : pstate) : bool := match s with PsInResize3 | PsInResizeRemove3 | PsReady => true | _ => false end.

Lemma nodup_app {A} (a b : list A) : NoDup a -> NoDup b -> (forall x, In x a -> In x b -> False) -> NoDup (a ++ b).
Proof.
  induction a as [|x a IH]; simpl; intros Ha Hb H; auto. inversion Ha; subst. constructor.
  - rewrite in_app_iff. intros [C|C]; [tauto|]. apply (H x); auto.
  - apply IH; auto. intros y Hy. apply H. auto.
Qed.

(* file descriptors and registrations *)
Record Fds (m : master) (ns : Z -> option nproc) (dn up : Z -> list msg) : Prop := {
  f_range : forall l, 1 <= l <= d_maxid (m_d m) ->
    1 <= m_pfd m l < max_fds /\ m_fdlid m (m_pfd m l) = l /\ exists n, ns (m_pfd m l) = Some n;
  f_lid : forall q, 0 <= m_fdlid m q -> 1 <= m_fdlid m q <= d_maxid (m_d m) /\ m_pfd m (m_fdlid m q) = q;
  f_none : forall q, ns q = None -> dn q = [] /\ up q = [] /\ m_fdlid m q < 0 /\ is_reg (m_fdst m q) = false;
  f_some : forall q n, ns q = Some n -> 1 <= q < max_fds;
  f_unreg : forall q n, ns q = Some n -> m_fdlid m q < 0 ->
    n = mkNp newcomer NReg /\ dn q = [] /\
    ((up q = [MRegister] /\ is_reg (m_fdst m q) = false) \/ (up q = [] /\ is_reg (m_fdst m q) = true));
  f_rr : forall q, m_fdst m q = PsRegReceived -> m_fdlid m q < 0;
  f_nodup : NoDup (joins (m_reqs m));
  f_joins : forall q, In q (joins (m_reqs m)) <-> m_fdst m q = PsRegReceived2 /\ m_fdlid m q < 0;
  f_loc : forall x, d_maxid (m_d m) < x -> d_loc (m_d m) x = false }.

Section Inv.
  Variables (next junk : Z -> Z) (n0 : Z).
  Hypothesis Hn0 : 0 <= n0.
  Hypothesis Hnext : forall p, next p <> -1.
  Notation WL := (WL n0). Notation NL := (NL n0).

  (* between resizes ([inr = false]), or the master waiting for the others to enter *)
  Record OpenM (log : list (list req)) (P : Z) (inr : bool)
      (m : master) (ns : Z -> option nproc) (dn up : Z -> list msg) : Prop := {
    o_lid : d_lid (m_d m) = 0;
    o_st : d_st (m_d m) = if inr then PsInResize else PsReady;
    o_zero : In 0 (WL log);
    o_max : d_maxid (m_d m) = NL log - 1;
    o_le : NL log <= max_peers;
    o_inst : exists i, d_inst (m_d m) = Some i /\ i_epoch i = zlen log /\ i_phase i = (if inr then next P else P) /\
      world_ok n0 log 0 i /\ (inr = true -> w_parent (i_world i) = None) /\
      (w_parent (i_world i) = None -> forall x, 0 <= x < NL log -> ~ In x (WL log) -> d_peer (m_d m) x = PsDead);
    o_own : inr = true -> d_peer (m_d m) 0 = PsInResize;
    o_in : forall x, In x (WL log) -> d_peer (m_d m) x = PsReady \/ d_peer (m_d m) x = PsInResize;
    o_out : forall x, 0 <= x < NL log -> ~ In x (WL log) -> d_peer (m_d m) x = PsDead \/ d_peer (m_d m) x = PsReadyRemove;
    o_ready : m_ready m = count_st live (m_d m);
    o_dead : m_dead m = count_st is_dead (m_d m);
    o_sess : forall q n, ns q = Some n -> 0 <= m_fdlid m q ->
      let l := m_fdlid m q in
      if zin l (WL log) then sessA next junk n0 log P (d_peer (m_d m) l) l n (dn q) (up q)
      else sessR junk n0 log l n (dn q) (up q) }.

  (* the master waits for confirmations of the resize with requests [rs] *)
  Record RoundM (cur : list (list req)) (rs : list req) (P a r : Z)
      (m : master) (ns : Z -> option nproc) (dn up : Z -> list msg) : Prop := {
    r_lid : d_lid (m_d m) = 0;
    r_st : d_st (m_d m) = PsInResize2;
    r_zero : In 0 (WL cur);
    r_max : d_maxid (m_d m) = NL (nlog cur rs) - 1;
    r_le : NL (nlog cur rs) <= max_peers;
    r_fine : requests_fine (WL cur) rs;
    r_a : a = zlen (joins rs);
    r_r : r = zlen (removals rs);
    r_inst : exists i, d_inst (m_d m) = Some i /\ i_epoch i = zlen cur /\ i_phase i = next P /\
      world_ok n0 cur 0 i /\ w_parent (i_world i) = None;
    r_own : d_peer (m_d m) 0 = PsInResize;
    r_in : forall x, In x (WL cur) -> x <> 0 ->
      if zin x (removals rs) then d_peer (m_d m) x = PsInResizeRemove2 \/ d_peer (m_d m) x = PsInResizeRemove3
      else d_peer (m_d m) x = PsInResize2 \/ d_peer (m_d m) x = PsInResize3;
    r_new : forall x, NL cur <= x < NL (nlog cur rs) -> d_peer (m_d m) x = PsRegFinishing \/ d_peer (m_d m) x = PsReady;
    r_out : forall x, 0 <= x < NL cur -> ~ In x (WL cur) -> d_peer (m_d m) x = PsDead;
    r_ready : m_ready m = count_st live (m_d m);
    r_dead : m_dead m = count_st is_dead (m_d m);
    r_noj : joins (m_reqs m) = [];
    r_sess : forall q n, ns q = Some n -> 0 <= m_fdlid m q ->
      let l := m_fdlid m q in
      if zin l (WL cur) then sessB (RoundOld next n0 cur rs P l) (is_conf (d_peer (m_d m) l)) NWait n (dn q) (up q)
      else if NL cur <=? l then sessB (RoundNew n0 cur rs l) (is_conf (d_peer (m_d m) l)) NReg n (dn q) (up q)
      else sessR junk n0 (nlog cur rs) l n (dn q) (up q) }.

  Definition Mode (log : list (list req)) (P : Z) (pc : mpc) m ns dn up : Prop :=
    match pc with
    | MApp => OpenM log P false m ns dn up
    | MIn => OpenM log P true m ns dn up
    | MWaitOk a r => exists cur rs, log = nlog cur rs /\ RoundM cur rs P a r m ns dn up
    end.
  Definition Inv (s : sys) (log : list (list req)) : Prop :=
    Fds (s_m s) (s_n s) (s_down s) (s_up s) /\ exists P, Mode log P (s_mpc s) (s_m s) (s_n s) (s_down s) (s_up s).

  (** events of processes other than the master *)

  Lemma fds_upd s s' q n dn up : 0 <= m_fdlid (s_m s) q -> Upd s s' q n dn up ->
    Fds (s_m s) (s_n s) (s_down s) (s_up s) -> (exists n1, s_n s q = Some n1) -> Fds (s_m s') (s_n s') (s_down s') (s_up s').
  Proof.
    intros Hq (U1 & U2 & U3 & U4 & U5 & U6) [F1 F2 F3 F4 F5 F6 F7 F8 F9] (n1 & Hn1). rewrite U1. constructor; auto.
    - intros l Hl. destruct (F1 l Hl) as (A & B & n2 & C). split; auto. split; auto.
      destruct (Z.eq_dec (m_pfd (s_m s) l) q) as [->|Hne]; [eauto|]. destruct (U6 _ Hne) as (-> & _). eauto.
    - intros x Hx. destruct (Z.eq_dec x q) as [->|Hne]; [congruence|]. destruct (U6 _ Hne) as (E1 & E2 & E3).
      rewrite E1 in Hx. rewrite E2, E3. auto.
    - intros x n2 Hx. destruct (Z.eq_dec x q) as [->|Hne]; [eauto|]. destruct (U6 _ Hne) as (E1 & E2 & E3). rewrite E1 in Hx. eauto.
    - intros x n2 Hx Hl. destruct (Z.eq_dec x q) as [->|Hne]; [lia|]. destruct (U6 _ Hne) as (E1 & E2 & E3).
      rewrite E1 in Hx. rewrite E2, E3. auto.
  Qed.

  Lemma old_nogo cur rs P l d : RoundOld next n0 cur rs P l d -> may_go (mkNp d NWait) = false.
  Proof.
    intros R. destruct (ro_inst _ _ _ _ _ _ _ R) as (i & Ei & _ & Eph & _). unfold may_go. simpl.
    rewrite Ei, Eph, (ro_phase _ _ _ _ _ _ _ R). destruct (Z.eqb_spec (-1) (next P)); auto. exfalso. apply (Hnext P). auto.
  Qed.
  Lemma new_nogo cur rs l d : RoundNew n0 cur rs l d -> may_go (mkNp d NReg) = false.
  Proof. intros R. unfold may_go. simpl. rewrite (rn_phase _ _ _ _ _ R). simpl. apply andb_false_r. Qed.

  Lemma inv_local s log ev q r : Inv s log -> ev_proc ev = Some q -> exec next junk s ev = Some r ->
    exists s', r = Ok s' /\ Inv s' log.
  Proof.
    intros (HF & P & HM) Hq He. destruct (exec_local _ _ _ _ _ _ Hq He) as (n & lr & En & El & Hr).
    destruct (Z_lt_le_dec (m_fdlid (s_m s) q) 0) as [Hl|Hl].
    - exfalso. destruct (f_unreg _ _ _ _ HF q n En Hl) as (-> & Ed & _). rewrite Ed in El.
      destruct ev; cbn in El; discriminate.
    - assert (HU : forall n' dn' out s', Upd s s' q n' dn' (s_up s q ++ out) ->
               (Mode log P (s_mpc s) (s_m s) (s_n s') (s_down s') (s_up s')) -> Inv s' log).
      { intros n' dn' out s' U HM'. split.
        - eapply fds_upd; eauto.
        - exists P. destruct U as (U1 & U2 & _). rewrite U1, U2. auto. }
      assert (HO : forall inr, OpenM log P inr (s_m s) (s_n s) (s_down s) (s_up s) ->
         exists s', r = Ok s' /\ (exists n' dn' out, Upd s s' q n' dn' (s_up s q ++ out)) /\ OpenM log P inr (s_m s) (s_n s') (s_down s') (s_up s')).
      { intros inr HO.
        assert (HS : exists n' dn' out, lr = Ok (n', dn', out) /\
            (if zin (m_fdlid (s_m s) q) (WL log) then sessA next junk n0 log P (d_peer (m_d (s_m s)) (m_fdlid (s_m s) q)) (m_fdlid (s_m s) q) n' dn' (s_up s q ++ out)
             else sessR junk n0 log (m_fdlid (s_m s) q) n' dn' (s_up s q ++ out))).
        { pose proof (o_sess _ _ _ _ _ _ _ HO q n En Hl) as HS. cbv zeta in HS.
          destruct (zin (m_fdlid (s_m s) q) (WL log)) eqn:Ez.
          - apply zin_In in Ez. eapply local_A; eauto. apply (o_zero _ _ _ _ _ _ _ HO).
          - eapply local_R; eauto. }
        destruct HS as (n' & dn' & out & E & HS). destruct (Hr _ _ _ E) as (s' & Er & U).
        exists s'. split; auto. split; [eauto|]. pose proof (o_sess _ _ _ _ _ _ _ HO) as HSS. destruct HO; constructor; auto.
        intros x nx Hx Hlx. destruct U as (U1 & U2 & U3 & U4 & U5 & U6). destruct (Z.eq_dec x q) as [->|Hne].
        - rewrite U3 in Hx. injection Hx as <-. cbv zeta. rewrite U4, U5. auto.
        - destruct (U6 x Hne) as (E1 & E2 & E3). rewrite E1 in Hx. rewrite E2, E3. apply HSS; auto. }
      unfold Mode in *. destruct (s_mpc s) as [| |a r0] eqn:Epc.
      + destruct (HO false HM) as (s' & Er & (n' & dn' & out & U) & HM'). exists s'. split; auto. eapply HU; eauto.
      + destruct (HO true HM) as (s' & Er & (n' & dn' & out & U) & HM'). exists s'. split; auto. eapply HU; eauto.
      + destruct HM as (cur & rs & -> & HR).
        assert (HS : exists n' dn' out, lr = Ok (n', dn', out) /\ let l := m_fdlid (s_m s) q in
            (if zin l (WL cur) then sessB (RoundOld next n0 cur rs P l) (is_conf (d_peer (m_d (s_m s)) l)) NWait n' dn' (s_up s q ++ out)
             else if NL cur <=? l then sessB (RoundNew n0 cur rs l) (is_conf (d_peer (m_d (s_m s)) l)) NReg n' dn' (s_up s q ++ out)
             else sessR junk n0 (nlog cur rs) l n' dn' (s_up s q ++ out))).
        { pose proof (r_sess _ _ _ _ _ _ _ _ _ HR q n En Hl) as HS. cbv zeta in *.
          destruct (zin (m_fdlid (s_m s) q) (WL cur)) eqn:Ez; [|destruct (NL cur <=? m_fdlid (s_m s) q) eqn:Ek].
          - eapply local_B; eauto; try discriminate.
            + intros d R. eapply old_nogo; eauto.
            + intros d d' E1 E2 _ E3. unfold may_go in *. simpl in *. rewrite E1, E2. auto.
            + intros d R. apply (ro_phase _ _ _ _ _ _ _ R).
          - eapply local_B; eauto; try discriminate.
            + intros d R. eapply new_nogo; eauto.
            + intros d d' E1 E2 E3 _. unfold may_go in *. simpl in *. rewrite E1, E3. simpl. apply andb_false_r.
            + intros d R. apply (rn_phase _ _ _ _ _ R).
          - eapply local_R; eauto. }
        destruct HS as (n' & dn' & out & E & HS). destruct (Hr _ _ _ E) as (s' & Er & U).
        exists s'. split; auto. eapply HU; eauto. exists cur, rs. split; auto. pose proof (r_sess _ _ _ _ _ _ _ _ _ HR) as HSS. destruct HR; constructor; auto.
        intros x nx Hx Hlx. destruct U as (U1 & U2 & U3 & U4 & U5 & U6). destruct (Z.eq_dec x q) as [->|Hne].
        * rewrite U3 in Hx. injection Hx as <-. cbv zeta. rewrite U4, U5. auto.
        * destruct (U6 x Hne) as (E1 & E2 & E3). rewrite E1 in Hx. rewrite E2, E3. apply HSS; auto.
  Qed.

  (** a process starts *)
  Lemma mode_ext log P pc m ns dn up ns' dn' up' : Mode log P pc m ns dn up ->
    (forall q n, ns' q = Some n -> 0 <= m_fdlid m q -> ns q = Some n /\ dn' q = dn q /\ up' q = up q) ->
    Mode log P pc m ns' dn' up'.
  Proof.
    intros HM HE. destruct pc; simpl in *.
    - pose proof (o_sess _ _ _ _ _ _ _ HM) as HSS. destruct HM; constructor; auto. intros q n Hn Hl. destruct (HE q n Hn Hl) as (A & -> & ->). apply HSS; auto.
    - pose proof (o_sess _ _ _ _ _ _ _ HM) as HSS. destruct HM; constructor; auto. intros q n Hn Hl. destruct (HE q n Hn Hl) as (A & -> & ->). apply HSS; auto.
    - destruct HM as (cur & rs & E & HM). exists cur, rs. split; auto. pose proof (r_sess _ _ _ _ _ _ _ _ _ HM) as HSS.
      destruct HM; constructor; auto. intros q n Hn Hl. destruct (HE q n Hn Hl) as (A & -> & ->). apply HSS; auto.
  Qed.

  Lemma inv_join s log q r : Inv s log -> exec next junk s (EvJoin q) = Some r -> exists s', r = Ok s' /\ Inv s' log.
  Proof.
    intros (HF & P & HM) He. cbn [exec] in He. destruct (s_n s q) eqn:En; [discriminate|].
    destruct ((0 <? q) && (q <? max_fds)) eqn:Eq; [|discriminate]. injection He as <-. eexists. split; [reflexivity|].
    pose proof HF as [F1 F2 F3 F4 F5 F6 F7 F8 F9]. destruct (F3 q En) as (N1 & N2 & N3 & N4).
    split.
    - unfold with_n. simpl. constructor; auto.
      + intros l Hl. destruct (F1 l Hl) as (A & B & n2 & C). split; auto. split; auto. exists n2. rewrite setz_ne; auto. congruence.
      + intros x Hx. destruct (Z.eq_dec x q) as [->|Hne]; [rewrite setz_eq in Hx; discriminate|].
        unfold push1. rewrite setz_ne in Hx by auto. rewrite setz_ne by auto. auto.
      + intros x n Hx. destruct (Z.eq_dec x q) as [->|Hne]; [lia|]. rewrite setz_ne in Hx by auto. eauto.
      + intros x n Hx Hl. unfold push1. destruct (Z.eq_dec x q) as [->|Hne].
        * rewrite setz_eq in Hx. injection Hx as <-. rewrite setz_eq, N2. auto.
        * rewrite setz_ne in Hx by auto. rewrite setz_ne by auto. auto.
    - exists P. unfold with_n. simpl. eapply mode_ext; [exact HM|]. intros x n Hx Hl. unfold push1.
      destruct (Z.eq_dec x q) as [->|Hne]; [lia|]. rewrite setz_ne in Hx by auto. rewrite setz_ne by auto. auto.
  Qed.

  (** the master handles a command *)
  Lemma sent_nil q : sent_to q [] = []. Proof. reflexivity. Qed.
  Lemma push_nil f q : push f [] q = f q. Proof. unfold push. rewrite sent_nil, app_nil_r. auto. Qed.

  Lemma count_ext f d g d' : d_maxid d' = d_maxid d ->
    (forall x, 1 <= x <= d_maxid d -> g (d_peer d' x) = f (d_peer d x)) -> count_st g d' = count_st f d.
  Proof. clear next junk n0 Hn0 Hnext.
    intros E H. unfold count_st. rewrite E. do 2 f_equal. apply filter_ext_in. intros x Hx. apply zcount_in in Hx.
    destruct (1 <=? x) eqn:E1; simpl; auto. apply H. lia.
  Qed.
  Lemma count_zlen f d : count_st f d = zlen (filter (fun l => (1 <=? l) && f (d_peer d l)) (zcount (d_maxid d + 1))).
  Proof. reflexivity. Qed.
  Lemma filter_one (f g : Z -> bool) L y : NoDup L -> In y L -> f y = false -> g y = true -> (forall x, x <> y -> g x = f x) ->
    zlen (filter g L) = zlen (filter f L) + 1.
  Proof. clear next junk n0 Hn0 Hnext.
    intros ND Hy Ef Eg H. destruct (in_split _ _ Hy) as (a & b & ->). apply NoDup_remove_2 in ND. rewrite in_app_iff in ND.
    rewrite !filter_app. simpl. rewrite Ef, Eg. rewrite (filter_ext_in g f a), (filter_ext_in g f b).
    - rewrite !zlen_app, zlen_cons. lia.
    - intros x Hx. apply H. intros ->. tauto.
    - intros x Hx. apply H. intros ->. tauto.
  Qed.
  Lemma count_one f d l s : 1 <= l <= d_maxid d -> f (d_peer d l) = false -> f s = true ->
    count_st f (set_peer d l s) = count_st f d + 1.
  Proof. clear next junk n0 Hn0 Hnext.
    intros Hl E1 E2. rewrite !count_zlen. simpl. apply (filter_one _ _ _ l).
    - apply zcount_nodup.
    - apply zcount_in. lia.
    - rewrite E1. apply andb_false_r.
    - rewrite setz_eq, E2. lia.
    - intros x Hx. rewrite setz_ne; auto.
  Qed.

  Lemma fds_up m ns dn up q c rest : Fds m ns dn up -> up q = c :: rest -> 0 <= m_fdlid m q ->
    Fds m ns (push dn []) (setz up q rest).
  Proof. clear next junk n0 Hn0 Hnext.
    intros [F1 F2 F3 F4 F5 F6 F7 F8 F9] Eu Hl. constructor; auto.
    - intros x Hx. rewrite push_nil. destruct (F3 x Hx) as (A & B & C & D). destruct (Z.eq_dec x q) as [->|Hne]; [lia|].
      rewrite setz_ne by auto. auto.
    - intros x n Hx Hlx. rewrite push_nil. destruct (Z.eq_dec x q) as [->|Hne]; [lia|]. rewrite setz_ne by auto. auto.
  Qed.
  (* only the table of peers, the number of ready ones and the state change *)
  Lemma fds_peer m ns dn up d' rdy dead : Fds m ns dn up -> d_maxid d' = d_maxid (m_d m) -> d_loc d' = d_loc (m_d m) ->
    Fds (mkMaster d' rdy dead (m_fdst m) (m_fdlid m) (m_pfd m) (m_reqs m)) ns dn up.
  Proof. clear next junk n0 Hn0 Hnext. intros [F1 F2 F3 F4 F5 F6 F7 F8 F9] E1 E2. constructor; simpl; rewrite ?E1, ?E2; auto. Qed.

  Lemma inv_register s log q rest : Inv s log -> s_up s q = MRegister :: rest ->
    exists m', master_cmd (s_m s) q MRegister = Ok (m', []) /\
      Inv (with_m (mkSys (s_m s) (s_mpc s) (s_n s) (s_down s) (setz (s_up s) q rest)) m' (s_mpc s) []) log.
  Proof.
    intros (HF & P & HM) Eu. pose proof HF as [F1 F2 F3 F4 F5 F6 F7 F8 F9].
    destruct (s_n s q) as [n|] eqn:En; [|destruct (F3 q En) as (_ & E & _); congruence].
    assert (Hst : d_st (m_d (s_m s)) <> PsInResize1).
    { unfold Mode in HM. destruct (s_mpc s).
      - rewrite (o_st _ _ _ _ _ _ _ HM). discriminate.
      - rewrite (o_st _ _ _ _ _ _ _ HM). discriminate.
      - destruct HM as (cur & rs & _ & HM). rewrite (r_st _ _ _ _ _ _ _ _ _ HM). discriminate. }
    destruct (Z_lt_le_dec (m_fdlid (s_m s) q) 0) as [Hl|Hl].
    - destruct (F5 q n En Hl) as (-> & Ed & [(E1 & E2)|(E1 & E2)]); [|congruence]. rewrite Eu in E1. injection E1 as ->.
      set (m' := m_setfdst (s_m s) (setz (m_fdst (s_m s)) q PsRegReceived)). exists m'. split.
      { cbn [master_cmd]. unfold got_register. replace (0 <=? m_fdlid (s_m s) q) with false by lia.
        destruct (d_st (m_d (s_m s))); try reflexivity; try tauto; destruct (m_fdst (s_m s) q); try reflexivity; discriminate. }
      split.
      + unfold with_m. simpl. constructor; simpl; auto.
        * intros x Hx. rewrite push_nil. destruct (Z.eq_dec x q) as [->|Hne]; [congruence|]. rewrite !setz_ne by auto. auto.
        * intros x n Hx Hlx. rewrite push_nil. destruct (Z.eq_dec x q) as [->|Hne].
          -- rewrite !setz_eq. assert (n = {| np_d := newcomer; np_pc := NReg |}) by congruence. auto.
          -- rewrite !setz_ne by auto. auto.
        * intros x. destruct (Z.eq_dec x q) as [->|Hne]; [rewrite setz_eq; auto|]. rewrite setz_ne by auto. auto.
        * intros x. rewrite F8. destruct (Z.eq_dec x q) as [->|Hne]; [|rewrite setz_ne by auto; tauto].
          rewrite setz_eq. split; [intros (A & _); rewrite A in E2; discriminate|]. intros (A & _); discriminate.
      + exists P. unfold with_m. simpl.
        assert (HM' : Mode log P (s_mpc s) m' (s_n s) (s_down s) (s_up s)).
        { unfold Mode in *. destruct (s_mpc s); [destruct HM; constructor; auto..|].
          destruct HM as (cur & rs & E & HM). exists cur, rs. split; auto. destruct HM; constructor; auto. }
        eapply mode_ext; [exact HM'|]. intros x n Hx Hlx. rewrite push_nil. simpl in Hlx.
        rewrite setz_ne by (intros ->; lia). auto.
    - exfalso. unfold Mode in HM. destruct (s_mpc s).
      + pose proof (o_sess _ _ _ _ _ _ _ HM q n En Hl) as HS. cbv zeta in HS. rewrite Eu in HS.
        destruct (zin (m_fdlid (s_m s) q) (WL log)).
        * unfold sessA in HS. destruct (d_peer (m_d (s_m s)) (m_fdlid (s_m s) q)); try tauto.
          -- destruct HS as [(? & _)|((p & e & ?) & _)]; discriminate.
          -- destruct HS; discriminate.
        * destruct HS; discriminate.
      + pose proof (o_sess _ _ _ _ _ _ _ HM q n En Hl) as HS. cbv zeta in HS. rewrite Eu in HS.
        destruct (zin (m_fdlid (s_m s) q) (WL log)).
        * unfold sessA in HS. destruct (d_peer (m_d (s_m s)) (m_fdlid (s_m s) q)); try tauto.
          -- destruct HS as [(? & _)|((p & e & ?) & _)]; discriminate.
          -- destruct HS; discriminate.
        * destruct HS; discriminate.
      + destruct HM as (cur & rs & _ & HM). pose proof (r_sess _ _ _ _ _ _ _ _ _ HM q n En Hl) as HS. cbv zeta in HS. rewrite Eu in HS.
        assert (HB : forall Q conf pc, sessB Q conf pc n (s_down s q) (MRegister :: rest) -> False).
        { intros Q conf pc (_ & HB). destruct conf.
          - destruct HB as (_ & HB & _). discriminate.
          - destruct HB as (_ & [(pre & _ & _ & HB)|(_ & HB)]); discriminate. }
        destruct (zin _ _); [eapply HB; eauto|]. destruct (_ <=? _); [eapply HB; eauto|]. destruct HS. discriminate.
  Qed.

  Lemma lid_inj m ns dn up x q : Fds m ns dn up -> 0 <= m_fdlid m x -> m_fdlid m x = m_fdlid m q -> x = q.
  Proof. clear next junk n0 Hn0 Hnext.
    intros HF H E. destruct (f_lid _ _ _ _ HF x H) as (_ & A). rewrite E in H. destruct (f_lid _ _ _ _ HF q H) as (_ & B). congruence.
  Qed.

  Lemma inv_up s log q r : Inv s log -> exec next junk s (EvUp q) = Some r -> exists s', r = Ok s' /\ Inv s' log.
  Proof.
    intros HI He. cbn [exec] in He. destruct (s_up s q) as [|c rest] eqn:Eu; [discriminate|]. injection He as <-.
    assert (HR : c = MRegister \/ c <> MRegister) by (destruct c; auto; right; discriminate).
    destruct HR as [->|Hc].
    { destruct (inv_register s log q rest HI Eu) as (m' & E & HI'). rewrite E. cbn [obind fst snd]. eauto. }
    destruct HI as (HF & P & HM). pose proof HF as [F1 F2 F3 F4 F5 F6 F7 F8 F9].
    destruct (s_n s q) as [n|] eqn:En; [|destruct (F3 q En) as (_ & E & _); congruence].
    destruct (Z_lt_le_dec (m_fdlid (s_m s) q) 0) as [Hl|Hl].
    { destruct (F5 q n En Hl) as (_ & _ & [(E & _)|(E & _)]); rewrite Eu in E; [injection E as -> ->; tauto|discriminate]. }
    destruct (F2 q Hl) as (HL & _). set (l := m_fdlid (s_m s) q) in *.
    assert (HA : forall inr, OpenM log P inr (s_m s) (s_n s) (s_down s) (s_up s) ->
       exists m', master_cmd (s_m s) q c = Ok (m', []) /\
         Fds m' (s_n s) (push (s_down s) []) (setz (s_up s) q rest) /\
         OpenM log P inr m' (s_n s) (push (s_down s) []) (setz (s_up s) q rest)).
    { intros inr HO. pose proof (o_sess _ _ _ _ _ _ _ HO q n En Hl) as HS. cbv zeta in HS. fold l in HS. rewrite Eu in HS.
      destruct (zin l (WL log)) eqn:Ez; [|destruct HS; discriminate].
      assert (HS2 : d_peer (m_d (s_m s)) l = PsReady /\ (exists p e, c :: rest = [MEnter p e]) /\ s_down s q = [] /\ np_pc n = NWait /\
                    Entered next n0 log P l (np_d n)).
      { unfold sessA in HS. destruct (d_peer (m_d (s_m s)) l); try tauto.
        - destruct HS as [(HS & _)|HS]; [discriminate|tauto].
        - destruct HS; discriminate. }
      destruct HS2 as (Er & (p & e & E) & Ed & Epc & HE). injection E as -> ->.
      pose proof (o_max _ _ _ _ _ _ _ HO) as Hmx. pose proof (o_le _ _ _ _ _ _ _ HO) as Hle.
      exists (m_setd (s_m s) (set_peer (m_d (s_m s)) l PsInResize)). split; [|split].
      - cbn [master_cmd]. fold l. replace (l <? 0) with false by lia. unfold got_enterresize.
        replace ((0 <=? l) && (l <? max_peers)) with true by lia. cbn [cassert]. rewrite Er. reflexivity.
      - apply fds_peer; auto. eapply fds_up; eauto.
      - apply zin_In in Ez. destruct HO as [O1 O2 O3 O4 O5 O6 O7 O8 O9 O10 O11 O12]. constructor; simpl; auto.
        + destruct O6 as (i & B1 & B2 & B3 & B4 & B5 & B6). exists i. split; auto. split; auto. split; auto. split; auto. split; auto.
          intros Hp x Hx Hn. rewrite setz_ne by (intros ->; tauto). auto.
        + intros Hi. rewrite setz_ne by lia. auto.
        + intros x Hx. destruct (Z.eq_dec x l) as [->|Hne]; [rewrite setz_eq; auto|rewrite setz_ne by auto; auto].
        + intros x Hx Hn. rewrite setz_ne by (intros ->; tauto). auto.
        + rewrite O10. symmetry. apply count_ext; auto. intros x Hx. simpl.
          destruct (Z.eq_dec x l) as [->|Hne]; [rewrite setz_eq, Er; auto|rewrite setz_ne by auto; auto].
        + rewrite O11. symmetry. apply count_ext; auto. intros x Hx. simpl.
          destruct (Z.eq_dec x l) as [->|Hne]; [rewrite setz_eq, Er; auto|rewrite setz_ne by auto; auto].
        + intros x nx Hx Hlx. rewrite push_nil. destruct (Z.eq_dec x q) as [->|Hne].
          * fold l. rewrite !setz_eq. replace (zin l (WL log)) with true by (symmetry; apply zin_In; auto).
            unfold sessA. rewrite En in Hx. injection Hx as <-. auto.
          * rewrite (setz_ne (s_up s)) by auto.
            rewrite (setz_ne (d_peer (m_d (s_m s)))) by (intros E; apply Hne; exact (lid_inj _ _ _ _ _ _ HF Hlx E)).
            apply O12; auto. }
    unfold Mode in HM. destruct (s_mpc s) as [| |a r0] eqn:Epc.
    - destruct (HA false HM) as (m' & E & A & B). rewrite E. cbn [obind fst snd]. eexists. split; [reflexivity|].
      split; [exact A|]. exists P. simpl. exact B.
    - destruct (HA true HM) as (m' & E & A & B). rewrite E. cbn [obind fst snd]. eexists. split; [reflexivity|].
      split; [exact A|]. exists P. simpl. exact B.
    - destruct HM as (cur & rs & -> & HO). pose proof (r_sess _ _ _ _ _ _ _ _ _ HO q n En Hl) as HS. cbv zeta in HS. fold l in HS. rewrite Eu in HS.
      assert (HB : forall Q conf pc, sessB Q conf pc n (s_down s q) (c :: rest) ->
               conf = false /\ c = MOk /\ rest = [] /\ s_down s q = [] /\ np_pc n = pc /\ Q (np_d n)).
      { intros Q conf pc (Epc2 & HB). destruct conf; [destruct HB as (_ & HB & _); discriminate|].
        destruct HB as ((d' & D & HQ) & [(pre & _ & _ & HB)|(Ed & HB)]); [discriminate|]. injection HB as -> ->. rewrite Ed in D.
        simpl in D. injection D as <-. auto 8. }
      pose proof (r_max _ _ _ _ _ _ _ _ _ HO) as Hmx. pose proof (WL_bound n0 Hn0 cur) as HWb.
      assert (HC : c = MOk /\ rest = [] /\ s_down s q = [] /\ is_conf (d_peer (m_d (s_m s)) l) = false /\
               (zin l (WL cur) || (NL cur <=? l)) = true /\
               forall cf, cf = true -> (if zin l (WL cur) then sessB (RoundOld next n0 cur rs P l) cf NWait n [] []
                 else sessB (RoundNew n0 cur rs l) cf NReg n [] [])).
      { destruct (zin l (WL cur)) eqn:Ez; [|destruct (NL cur <=? l) eqn:Ek; [|destruct HS; discriminate]].
        - destruct (HB _ _ _ HS) as (B1 & B2 & B3 & B4 & B5 & B6). split; auto. split; auto. split; auto. split; auto. split; auto. intros cf ->. split; auto.
        - destruct (HB _ _ _ HS) as (B1 & B2 & B3 & B4 & B5 & B6). split; auto. split; auto. split; auto. split; auto. split; auto. intros cf ->. split; auto. }
      destruct HC as (-> & -> & Ed & Econf & Ezz & HS2).
      (* the state of the process changes to the confirmed one *)
      assert (HP : exists s' k, got_ok (s_m s) l =
                 mkMaster (set_peer (m_d (s_m s)) l s') (m_ready (s_m s) + k) (m_dead (s_m s)) (m_fdst (s_m s)) (m_fdlid (s_m s)) (m_pfd (s_m s)) (m_reqs (s_m s)) /\
                 is_conf s' = true /\ is_dead s' = false /\ is_dead (d_peer (m_d (s_m s)) l) = false /\
                 (live s' = true) /\ k = (if live (d_peer (m_d (s_m s)) l) then 0 else 1) /\
                 (In l (WL cur) -> if zin l (removals rs) then s' = PsInResizeRemove3 else s' = PsInResize3) /\
                 (~ In l (WL cur) -> s' = PsReady)).
      { destruct (zin l (WL cur)) eqn:Ez.
        - apply zin_In in Ez. pose proof (r_in _ _ _ _ _ _ _ _ _ HO l Ez ltac:(lia)) as Hin.
          destruct (zin l (removals rs)).
          + destruct Hin as [E|E]; rewrite E in Econf; [|discriminate].
            exists PsInResizeRemove3, 0. unfold got_ok. rewrite E. split; [rewrite Z.add_0_r; reflexivity|].
            split; auto. split; auto. split; auto. split; auto. split; auto. split; auto. tauto.
          + destruct Hin as [E|E]; rewrite E in Econf; [|discriminate].
            exists PsInResize3, 0. unfold got_ok. rewrite E. split; [rewrite Z.add_0_r; reflexivity|].
            split; auto. split; auto. split; auto. split; auto. split; auto. split; auto. tauto.
        - apply zin_not in Ez. simpl in Ezz. destruct (r_new _ _ _ _ _ _ _ _ _ HO l) as [E|E]; [lia| |rewrite E in Econf; discriminate].
          exists PsReady, 1. unfold got_ok. rewrite E. split; [reflexivity|]. split; auto. split; auto. split; auto. split; auto. split; auto.
          split; auto. tauto. }
      destruct HP as (s' & k & EG & P1 & P2 & P3 & P4 & P5 & P6 & P7).
      cbn [master_cmd]. fold l. replace (l <? 0) with false by lia. cbn [obind fst snd]. rewrite EG. eexists. split; [reflexivity|].
      split.
      + unfold with_m. simpl. apply fds_peer; auto. eapply fds_up; eauto.
      + exists P. unfold with_m. cbn [s_m s_mpc s_n s_down s_up]. exists cur, rs. split; auto.
        destruct HO as [R1 R2 R3 R4 R5 R6 R7 R8 R9 R10 R11 R12 R13 R14 R15 R16 R17]. constructor; simpl; auto.
        * rewrite setz_ne by lia. auto.
        * intros x Hx Hx0. destruct (Z.eq_dec x l) as [->|Hne]; [rewrite setz_eq|rewrite setz_ne by auto; apply R11; auto].
          specialize (P6 Hx). destruct (zin l (removals rs)); auto.
        * intros x Hx. destruct (Z.eq_dec x l) as [->|Hne]; [rewrite setz_eq|rewrite setz_ne by auto; auto].
          right. apply P7. intros C. apply HWb in C. lia.
        * intros x Hx Hn. destruct (Z.eq_dec x l) as [->|Hne]; [|rewrite setz_ne by auto; auto].
          exfalso. apply orb_true_iff in Ezz. destruct Ezz as [Ezz|Ezz]; [apply zin_In in Ezz; tauto|lia].
        * rewrite R14, P5. destruct (live (d_peer (m_d (s_m s)) l)) eqn:El.
          -- rewrite Z.add_0_r. symmetry. apply count_ext; auto. intros x Hx. simpl.
             destruct (Z.eq_dec x l) as [->|Hne]; [rewrite setz_eq, El; auto|rewrite setz_ne by auto; auto].
          -- symmetry. apply count_one; auto.
        * rewrite R15. symmetry. apply count_ext; auto. intros x Hx. simpl.
          destruct (Z.eq_dec x l) as [->|Hne]; [rewrite setz_eq, P2, P3; auto|rewrite setz_ne by auto; auto].
        * intros x nx Hx Hlx. rewrite push_nil. destruct (Z.eq_dec x q) as [->|Hne].
          -- fold l. rewrite !setz_eq. rewrite En in Hx. injection Hx as <-. rewrite Ed.
             specialize (HS2 _ P1). destruct (zin l (WL cur)); auto. simpl in Ezz. rewrite Ezz. auto.
          -- rewrite (setz_ne (s_up s)) by auto.
             rewrite (setz_ne (d_peer (m_d (s_m s)))) by (intros E; apply Hne; exact (lid_inj _ _ _ _ _ _ HF Hlx E)).
             apply R17; auto.
  Qed.

  (** a cutoff *)
  Lemma cut_fold pat m L : zlen (m_reqs m) + zlen (filter (fun l => (1 <=? l) && pat l) L) <= max_reqs ->
    (forall x, In x L -> 0 <= x) ->
    exists m' ls, ofold (cut_step pat) L m = Ok m' /\ m' = m_setreqs m (m_reqs m ++ map RRemove ls) /\
      ls = filter (fun l => (1 <=? l) && pat l &&
              match d_peer (m_d m) l with PsDead | PsRegAccepted | PsRegReceived | PsRegReceived2 => false | _ => true end) L.
  Proof. clear next junk n0 Hn0 Hnext.
    revert m. induction L as [|x L IH]; intros m Hle HL.
    - exists m, []. simpl. split; auto. split; auto. rewrite app_nil_r. destruct m; auto.
    - simpl in Hle. cbn [ofold]. unfold cut_step at 1.
      assert (HL' : forall y, In y L -> 0 <= y) by (intros; apply HL; right; auto).
      assert (Skip : exists m' ls, ofold (cut_step pat) L m = Ok m' /\ m' = m_setreqs m (m_reqs m ++ map RRemove ls) /\
        ls = filter (fun l => (1 <=? l) && pat l && match d_peer (m_d m) l with PsDead | PsRegAccepted | PsRegReceived | PsRegReceived2 => false | _ => true end) L).
      { apply IH; auto. destruct ((1 <=? x) && pat x); [rewrite zlen_cons in Hle|]; lia. }
      set (g := fun l => (1 <=? l) && pat l && match d_peer (m_d m) l with PsDead | PsRegAccepted | PsRegReceived | PsRegReceived2 => false | _ => true end) in *.
      assert (Add : (1 <=? x) && pat x = true -> g x = true -> exists m' ls,
        (do s <- add_req m (RRemove x); ofold (cut_step pat) L s) = Ok m' /\ m' = m_setreqs m (m_reqs m ++ map RRemove ls) /\ ls = filter g (x :: L)).
      { intros E Eg. rewrite E, zlen_cons in Hle. pose proof (zlen_nonneg (filter (fun l => (1 <=? l) && pat l) L)) as Hp.
        unfold add_req, cassert. replace (Z.of_nat (length (m_reqs m)) <? max_reqs) with true by (unfold zlen in *; lia). cbn [obind].
        destruct (IH (m_setreqs m (m_reqs m ++ [RRemove x]))) as (m' & ls & A & B & C); auto.
        { simpl. rewrite zlen_app, zlen_cons, zlen_nil. lia. }
        exists m', (x :: ls). split; auto. split.
        - rewrite B. simpl. unfold m_setreqs. simpl. rewrite <- app_assoc. auto.
        - simpl. rewrite Eg. f_equal. rewrite C. apply filter_ext. intros y. unfold g. simpl. auto. }
      assert (Skip2 : g x = false -> exists m' ls, (do s <- Ok m; ofold (cut_step pat) L s) = Ok m' /\ m' = m_setreqs m (m_reqs m ++ map RRemove ls) /\ ls = filter g (x :: L)).
      { intros Eg. cbn [obind]. destruct Skip as (m' & ls & A & B & C). exists m', ls. split; auto. split; auto. simpl. rewrite Eg. auto. }
      assert (Hx : 0 <= x) by (apply HL; left; auto).
      destruct (d_peer (m_d m) x) eqn:Ep; try (apply Skip2; unfold g; rewrite Ep; apply andb_false_r);
        (destruct (pat x) eqn:Epat; [destruct (Z.eqb_spec x 0) as [Ex|Ex]|]);
        try (apply Skip2; unfold g; rewrite ?Ep, ?Epat; try subst x; simpl; rewrite ?andb_false_r; reflexivity);
        apply Add; unfold g; rewrite ?Ep, ?Epat; lia.
  Qed.

  Lemma joins_removes ls : joins (map RRemove ls) = [].
  Proof. clear next junk n0 Hn0 Hnext. induction ls; auto. Qed.

  Lemma inv_reqs log P pc m ns dn up rs : joins rs = joins (m_reqs m) ->
    Fds m ns dn up -> Mode log P pc m ns dn up ->
    Fds (m_setreqs m rs) ns (push dn []) up /\ Mode log P pc (m_setreqs m rs) ns (push dn []) up.
  Proof.
    intros Ej HF HM. split.
    - destruct HF; constructor; simpl; auto; rewrite ?Ej; auto; intros; rewrite push_nil; auto.
    - apply (mode_ext _ _ _ _ ns dn up); [|intros; rewrite push_nil; auto].
      unfold Mode in *. destruct pc; [destruct HM; constructor; auto..|].
      destruct HM as (cur & rs' & E & HM). exists cur, rs'. split; auto. destruct HM; constructor; auto. simpl. congruence.
  Qed.

  Lemma inv_cut s log pat r : Inv s log -> fine n0 log s (EvCut pat) -> exec next junk s (EvCut pat) = Some r ->
    exists s', r = Ok s' /\ Inv s' log.
  Proof.
    intros (HF & P & HM) Hf He. cbn [exec] in He. injection He as <-. unfold got_cutoff.
    destruct (cut_fold pat (s_m s) (zcount (d_maxid (m_d (s_m s)) + 1))) as (m' & ls & A & B & _).
    - exact Hf.
    - intros x Hx. apply zcount_in in Hx. lia.
    - rewrite A. cbn [obind]. eexists. split; [reflexivity|]. subst m'.
      destruct (inv_reqs log P (s_mpc s) (s_m s) (s_n s) (s_down s) (s_up s) (m_reqs (s_m s) ++ map RRemove ls)) as (X & Y); auto.
      { rewrite joins_app, joins_removes, app_nil_r. auto. }
      split; [exact X|]. exists P. exact Y.
  Qed.

  (** the calls of the master *)
  Lemma filter_two (f g h : Z -> bool) L : (forall x, In x L -> f x = g x || h x) -> (forall x, In x L -> g x && h x = false) ->
    zlen (filter f L) = zlen (filter g L) + zlen (filter h L).
  Proof. clear next junk n0 Hn0 Hnext.
    induction L as [|x L IH]; intros H1 H2; [reflexivity|]. simpl.
    rewrite (H1 x) by (left; auto). pose proof (H2 x (or_introl eq_refl)) as E.
    specialize (IH (fun y Hy => H1 y (or_intror Hy)) (fun y Hy => H2 y (or_intror Hy))).
    destruct (g x), (h x); simpl in *; try discriminate; rewrite ?zlen_cons; lia.
  Qed.

  Lemma finish_master_ok log P m ns dn up : Fds m ns dn up -> OpenM log P false m ns dn up ->
    exists m', finish_master m = Ok m' /\ Fds m' ns dn up /\ OpenM log P false m' ns dn up /\
      (exists i, d_inst (m_d m') = Some i /\ w_parent (i_world i) = None) /\ m_fdst m' = m_fdst m /\ m_reqs m' = m_reqs m /\ m_fdlid m' = m_fdlid m.
  Proof.
    intros HF HO. pose proof HO as [O1 O2 O3 O4 O5 O6 O7 O8 O9 O10 O11 O12].
    destruct O6 as (i & B1 & B2 & B3 & B4 & B5 & B6). unfold finish_master. rewrite B1.
    destruct (w_parent (i_world i)) as [p|] eqn:Ep.
    - unfold finish_node. rewrite B1, Ep. cbn [obind]. eexists. split; [reflexivity|].
      assert (HK : forall x, d_peer (m_d m) x <> PsReadyRemove -> finish_peers (m_d m) x = d_peer (m_d m) x).
      { intros x Hx. unfold finish_peers. destruct ((1 <=? x) && (x <=? d_maxid (m_d m))); auto. destruct (d_peer (m_d m) x); auto. tauto. }
      assert (HD : forall x, 0 <= x < NL log -> ~ In x (WL log) -> finish_peers (m_d m) x = PsDead).
      { intros x Hx Hn. unfold finish_peers. destruct (Z.eq_dec x 0) as [->|]; [tauto|].
        replace ((1 <=? x) && (x <=? d_maxid (m_d m))) with true by lia.
        destruct (O9 x Hx Hn) as [E|E]; rewrite E; auto. }
      assert (HI : forall x, In x (WL log) -> finish_peers (m_d m) x = d_peer (m_d m) x).
      { intros x Hx. apply HK. destruct (O8 x Hx) as [E|E]; rewrite E; discriminate. }
      split; [apply fds_peer; auto|]. split; [|split; [simpl; eauto|auto]].
      constructor; simpl; auto.
      + exists (clear_parent i). split; auto. split; auto. split; auto. split; [apply world_ok_clear; auto|]. auto.
      + intros x Hx. rewrite HI by auto. auto.
      + rewrite O10, !count_zlen. simpl. unfold marked.
        rewrite (filter_two (fun l => (1 <=? l) && live (d_peer (m_d m) l))
                   (fun l => (1 <=? l) && live (finish_peers (m_d m) l)) (fun l => (1 <=? l) && is_rr (d_peer (m_d m) l))).
        * unfold zlen. lia.
        * intros x Hx. apply zcount_in in Hx. unfold finish_peers. destruct (1 <=? x) eqn:E1; simpl; auto.
          replace (x <=? d_maxid (m_d m)) with true by lia. destruct (d_peer (m_d m) x); auto.
        * intros x Hx. apply zcount_in in Hx. unfold finish_peers. destruct (1 <=? x) eqn:E1; simpl; auto.
          replace (x <=? d_maxid (m_d m)) with true by lia. destruct (d_peer (m_d m) x); auto.
      + rewrite O11, !count_zlen. simpl. unfold marked.
        rewrite (filter_two (fun l => (1 <=? l) && is_dead (finish_peers (m_d m) l))
                   (fun l => (1 <=? l) && is_dead (d_peer (m_d m) l)) (fun l => (1 <=? l) && is_rr (d_peer (m_d m) l))).
        * unfold zlen. lia.
        * intros x Hx. apply zcount_in in Hx. unfold finish_peers. destruct (1 <=? x) eqn:E1; simpl; auto.
          replace (x <=? d_maxid (m_d m)) with true by lia. destruct (d_peer (m_d m) x); auto.
        * intros x Hx. apply zcount_in in Hx. destruct (1 <=? x) eqn:E1; simpl; auto.
          destruct (d_peer (m_d m) x); auto.
      + intros q n Hn Hl. specialize (O12 q n Hn Hl). cbv zeta in O12. destruct (zin (m_fdlid m q) (WL log)) eqn:Ez; auto.
        apply zin_In in Ez. rewrite HI by auto. auto.
    - exists m. split; auto. split; auto. split; [auto|]. split; [eauto|auto].
  Qed.

  Lemma push_nil_inv log P pc m ns dn up : Fds m ns dn up -> Mode log P pc m ns dn up ->
    Fds m ns (push dn []) up /\ Mode log P pc m ns (push dn []) up.
  Proof.
    intros HF HM. split.
    - destruct HF; constructor; auto; intros; rewrite push_nil; auto.
    - apply (mode_ext _ _ _ _ ns dn up); auto. intros. rewrite push_nil. auto.
  Qed.

  Lemma inv_finishM s log r : Inv s log -> exec next junk s EvFinishM = Some r -> exists s', r = Ok s' /\ Inv s' log.
  Proof.
    intros (HF & P & HM) He. cbn [exec] in He. destruct (s_mpc s) eqn:Epc; try discriminate. injection He as <-.
    destruct (finish_master_ok log P (s_m s) (s_n s) (s_down s) (s_up s) HF HM) as (m' & E & A & B & _). rewrite E. cbn [obind].
    eexists. split; [reflexivity|]. destruct (push_nil_inv log P MApp m' (s_n s) (s_down s) (s_up s) A B) as (X & Y).
    split; [exact X|]. exists P. exact Y.
  Qed.

  Lemma collect_fold m L : NoDup L -> zlen (m_reqs m) + zlen (filter (fun q => is_rr1 (m_fdst m q)) L) <= max_reqs ->
    exists m', ofold collect_step L m = Ok m' /\
      m' = mkMaster (m_d m) (m_ready m) (m_dead m) (m_fdst m') (m_fdlid m) (m_pfd m) (m_reqs m ++ map RJoin (filter (fun q => is_rr1 (m_fdst m q)) L)) /\
      (forall q, m_fdst m' q = if zin q L && is_rr1 (m_fdst m q) then PsRegReceived2 else m_fdst m q).
  Proof. clear next junk n0 Hn0 Hnext.
    revert m. induction L as [|x L IH]; intros m ND Hle.
    - exists m. simpl. split; auto. split; auto. rewrite app_nil_r. destruct m; auto.
    - inversion ND; subst. cbn [ofold]. unfold collect_step at 1. simpl in Hle. destruct (is_rr1 (m_fdst m x)) eqn:Ex.
      + rewrite zlen_cons in Hle. pose proof (zlen_nonneg (filter (fun q => is_rr1 (m_fdst m q)) L)) as Hp.
        destruct (m_fdst m x) eqn:Es; try discriminate. unfold add_req, cassert. cbn [m_setfdst m_reqs].
        replace (Z.of_nat (length (m_reqs m)) <? max_reqs) with true by (unfold zlen in *; lia). cbn [obind].
        set (m1 := m_setreqs _ _).
        assert (Ef : filter (fun q => is_rr1 (m_fdst m1 q)) L = filter (fun q => is_rr1 (m_fdst m q)) L).
        { apply filter_ext_in. intros y Hy. unfold m1. simpl. rewrite setz_ne; auto. intros ->. tauto. }
        destruct (IH m1) as (m' & A & B & C); auto.
        { rewrite Ef. unfold m1. simpl. rewrite zlen_app, zlen_cons, zlen_nil. lia. }
        exists m'. split; auto. split.
        * rewrite B at 1. rewrite Ef. unfold m1. simpl. rewrite Es. simpl. rewrite <- app_assoc. auto.
        * intros q. rewrite C. unfold m1. simpl. destruct (Z.eqb_spec q x) as [->|Hne].
          -- rewrite setz_eq. simpl. rewrite andb_false_r, Es. auto.
          -- rewrite setz_ne by auto. auto.
      + destruct (IH m) as (m' & A & B & C); auto.
        exists m'. split; [destruct (m_fdst m x); try discriminate; exact A|]. split.
        * rewrite B at 1. simpl. rewrite Ex. auto.
        * intros q. rewrite C. simpl. destruct (Z.eqb_spec q x) as [->|Hne]; auto.
          rewrite Ex, andb_false_r. auto.
  Qed.

  Lemma joins_map L : joins (map RJoin L) = L.
  Proof. clear next junk n0 Hn0 Hnext. induction L; simpl; auto. f_equal. auto. Qed.

  Lemma inv_callM s log r : Inv s log -> fine n0 log s EvCallM -> exec next junk s EvCallM = Some r ->
    exists s', r = Ok s' /\ Inv s' log.
  Proof.
    intros (HF & P & HM) Hf He. cbn [exec] in He. destruct (s_mpc s) eqn:Epc; try discriminate. injection He as <-.
    simpl in HM. set (m := s_m s) in *.
    assert (Eph : phase_of (m_d m) = P).
    { destruct (o_inst _ _ _ _ _ _ _ HM) as (i & Ei & _ & Eph & _). unfold phase_of. rewrite Ei. auto. }
    rewrite Eph. unfold master_call.
    destruct (o_inst _ _ _ _ _ _ _ HM) as (i & Ei & B2 & B3 & B4 & B5 & B6). unfold set_phase. rewrite Ei. cbn [obind].
    set (d1 := set_inst (m_d m) _).
    (* the phase is only looked at with [OpenM]: change it together with the one of the instance *)
    set (m1 := m_setd m d1).
    (* finish *)
    assert (HFm : exists m2, finish_master m1 = Ok m2 /\ Fds m2 (s_n s) (s_down s) (s_up s) /\
        m_fdst m2 = m_fdst m /\ m_reqs m2 = m_reqs m /\ m_fdlid m2 = m_fdlid m /\
        d_lid (m_d m2) = 0 /\ d_st (m_d m2) = PsReady /\ d_maxid (m_d m2) = NL log - 1 /\
        (exists i', d_inst (m_d m2) = Some i' /\ i_epoch i' = zlen log /\ i_phase i' = next P /\ world_ok n0 log 0 i' /\ w_parent (i_world i') = None) /\
        (forall x, In x (WL log) -> d_peer (m_d m2) x = d_peer (m_d m) x) /\
        (forall x, 0 <= x < NL log -> ~ In x (WL log) -> d_peer (m_d m2) x = PsDead) /\
        m_ready m2 = count_st live (m_d m2) /\ m_dead m2 = count_st is_dead (m_d m2)).
    { destruct (finish_master_ok log P m (s_n s) (s_down s) (s_up s) HF HM) as (m2 & E & A & B & (j & Ej & Epar) & C1 & C2 & C3).
      pose proof B as [O1 O2 O3 O4 O5 O6 O7 O8 O9 O10 O11 O12].
      destruct O6 as (j' & Ej' & D2 & D3 & D4 & D5 & D6). rewrite Ej in Ej'. injection Ej' as <-.
      exists (m_setd m2 (set_inst (m_d m2) (mkInst (i_epoch j) (next P) (i_locations j) (i_world j)))).
      assert (EP : forall x, In x (WL log) -> d_peer (m_d m2) x = d_peer (m_d m) x).
      { intros x Hx. unfold finish_master in E. rewrite Ei in E. destruct (w_parent (i_world i)).
        - apply obind_ok in E. destruct E as (d & E1 & E2). unfold finish_node in E1. rewrite Ei in E1.
          destruct (w_parent (i_world i)); injection E1 as <-; injection E2 as <-; auto.
          simpl. unfold finish_peers. destruct (_ && _); auto. destruct (o_in _ _ _ _ _ _ _ HM x Hx) as [Z|Z]; rewrite Z; auto.
        - injection E as <-. auto. }
      split.
      - unfold finish_master in *. unfold m1, d1. simpl. rewrite Ei in E. simpl in E.
        destruct (w_parent (i_world i)) eqn:Ew.
        + unfold finish_node in *. rewrite Ei, Ew in E. simpl in E |- *. rewrite Ew. simpl. injection E as <-. simpl in Ej. injection Ej as <-.
          reflexivity.
        + injection E as <-. rewrite Ei in Ej. injection Ej as <-. reflexivity.
      - split; [apply fds_peer; auto|]. simpl. split; auto. split; auto. split; auto. split; auto. split; auto. split; auto.
        split; [|split; [exact EP|split; [apply D6; auto|split; auto]]].
        eexists. split; [reflexivity|]. simpl. split; auto. split; auto. split; [apply world_ok_phase; auto|auto]. }
    destruct HFm as (m2 & E2 & HF2 & C1 & C2 & C3 & L1 & L2 & L3 & (i' & Ei' & I2 & I3 & I4 & I5) & K1 & K2 & K3 & K4).
    fold m1. rewrite E2. cbn [obind]. unfold make_progress.
    unfold fine in Hf. fold m in Hf. rewrite <- C1, <- C2 in Hf.
    pose proof (zcount_nodup max_fds) as NDF. pose proof (zcount_in max_fds) as HIF.
    generalize dependent (zcount max_fds). intros LF Hf NDF HIF.
    destruct (collect_fold m2 LF NDF Hf) as (m3 & E3 & EM3 & F3).
    rewrite E3. cbn [obind]. clear E3.
    assert (Ed3 : m_d m3 = m_d m2) by (rewrite EM3; auto).
    unfold enter_resize. rewrite Ed3, Ei', I5, L2. cbn [obind]. eexists. split; [reflexivity|].
    set (d4 := set_st _ _).
    assert (HF4 : Fds (m_setd m3 d4) (s_n s) (s_down s) (s_up s)).
    { pose proof HF2 as [F1 F2 F3' F4 F5 F6 F7 F8 F9].
      assert (Elid : m_fdlid m3 = m_fdlid m2) by (rewrite EM3; auto).
      assert (Epfd : m_pfd m3 = m_pfd m2) by (rewrite EM3; auto).
      assert (Ereq : m_reqs m3 = m_reqs m2 ++ map RJoin (filter (fun q => is_rr1 (m_fdst m2 q)) LF)) by (rewrite EM3; auto).
      assert (Ereg : forall q, is_reg (m_fdst m3 q) = is_reg (m_fdst m2 q)).
      { intros q. rewrite F3. destruct (m_fdst m2 q); simpl; rewrite ?andb_false_r; auto. destruct (zin q _); auto. }
      assert (Ein : forall q, m_fdst m2 q = PsRegReceived -> In q LF).
      { intros q Hq. destruct (s_n s q) eqn:En.
        - apply F4 in En. apply HIF. lia.
        - apply F3' in En. rewrite Hq in En. simpl in En. destruct En as (_ & _ & _ & En). discriminate. }
      constructor; cbn [m_setd m_d m_fdst m_fdlid m_pfd m_reqs]; rewrite ?Elid, ?Epfd; unfold d4; cbn [set_st set_peer d_maxid d_loc]; auto.
      - intros q Hq. rewrite Ereg. auto.
      - intros q n Hq Hl. rewrite Ereg. auto.
      - intros q. rewrite F3. destruct (zin q LF && is_rr1 (m_fdst m2 q)); [discriminate|]. auto.
      - rewrite Ereq, joins_app, joins_map. apply nodup_app; auto; [apply NoDup_filter; auto|].
        intros x Hx1 Hx2. apply F8 in Hx1. apply filter_In in Hx2. destruct Hx1 as (Z1 & _). rewrite Z1 in Hx2. destruct Hx2; discriminate.
      - intros q. rewrite Ereq, joins_app, joins_map, in_app_iff, F8, filter_In, F3.
        destruct (m_fdst m2 q) eqn:Es; cbn [is_rr1]; rewrite ?andb_false_r, ?andb_true_r; try (split; [intros [(?&?)|(?&?)]; discriminate|intros (?&?); discriminate]).
        + pose proof (Ein q Es) as Hin. replace (zin q LF) with true by (symmetry; apply zin_In; auto).
          split; [|auto]. intros _. split; auto.
        + split; [|intros (_ & X); left; auto]. intros [(_ & X)|(_ & X)]; [auto|discriminate]. }
    pose proof HM as [O1 O2 O3 O4 O5 O6 O7 O8 O9 O10 O11 O12].
    assert (HO4 : OpenM log P true (m_setd m3 d4) (s_n s) (s_down s) (s_up s)).
    { assert (Elid : m_fdlid m3 = m_fdlid m) by (rewrite EM3; auto).
      constructor; unfold d4; cbn [m_setd m_d set_st set_peer d_maxid d_lid d_st d_inst d_peer m_ready m_dead m_fdlid]; auto; rewrite ?L1.
      - exists i'. split; auto. split; auto. split; auto. split; auto. split; auto.
        intros _ x Hx Hn. rewrite setz_ne by (intros ->; tauto). auto.
      - intros _. apply setz_eq.
      - intros x Hx. destruct (Z.eq_dec x 0) as [->|Hne]; [rewrite setz_eq; auto|]. rewrite setz_ne by auto. rewrite K1 by auto. auto.
      - intros x Hx Hn. rewrite setz_ne by (intros ->; tauto). auto.
      - replace (m_ready m3) with (m_ready m2) by (rewrite EM3; auto). rewrite K3. symmetry. apply count_ext; auto.
        intros x Hx. simpl. rewrite setz_ne by lia. auto.
      - replace (m_dead m3) with (m_dead m2) by (rewrite EM3; auto). rewrite K4. symmetry. apply count_ext; auto.
        intros x Hx. simpl. rewrite setz_ne by lia. auto.
      - intros q n Hn Hl. cbv zeta. rewrite Elid in *. specialize (O12 q n Hn Hl). cbv zeta in O12.
        destruct (f_lid _ _ _ _ HF q Hl) as (HL & _).
        destruct (zin (m_fdlid m q) (WL log)) eqn:Ez; auto. rewrite setz_ne by lia. apply zin_In in Ez. rewrite K1 by auto. auto. }
    destruct (push_nil_inv log P MIn (m_setd m3 d4) (s_n s) (s_down s) (s_up s) HF4 HO4) as (X & Y).
    split; [exact X|]. exists P. exact Y.
  Qed.
End Inv.
