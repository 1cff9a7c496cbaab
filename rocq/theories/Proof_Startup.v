(* The invariant of startup, and that its end meets the invariant of the resizes *)
From Coq Require Import ZArith List Bool Lia Wf_nat ZifyBool ZifyNat.
From Verif Require Import Base Model_Space Model_RangeList Model_Partitioner Model_Resize Model_Startup Spec_Resize Proof_Resize1 Proof_Resize2 Proof_Resize3 Proof_Resize4 Proof_Resize5 Proof_Resize6 Proof_Resize7.
Import ListNotations.
Open Scope Z_scope.

(** tables of file descriptors *)
Lemma fds_ext m ns dn up ns' dn' up' : (forall q, ns' q = ns q) -> (forall q, dn' q = dn q) -> (forall q, up' q = up q) ->
  Fds m ns dn up -> Fds m ns' dn' up'.
Proof.
  intros E1 E2 E3 [F1 F2 F3 F4 F5 F6 F7 F8 F9]. constructor; auto.
  - intros l Hl. rewrite E1. auto.
  - intros q. rewrite E1, E2, E3. auto.
  - intros q n. rewrite E1. apply F4.
  - intros q n. rewrite E1, E2, E3. auto.
Qed.
Lemma fds_join m ns dn up q : Fds m ns dn up -> ns q = None -> 1 <= q < max_fds ->
  Fds m (setz ns q (Some (mkNp newcomer NReg))) dn (push1 up q [MRegister]).
Proof.
  intros [F1 F2 F3 F4 F5 F6 F7 F8 F9] En Hq. destruct (F3 q En) as (N1 & N2 & N3 & N4). constructor; auto.
  - intros l Hl. destruct (F1 l Hl) as (A & B & n2 & C). split; auto. split; auto. exists n2. rewrite setz_ne; auto. congruence.
  - intros x Hx. destruct (Z.eq_dec x q) as [->|Hne]; [rewrite setz_eq in Hx; discriminate|].
    unfold push1. rewrite setz_ne in Hx by auto. rewrite setz_ne by auto. auto.
  - intros x n Hx. destruct (Z.eq_dec x q) as [->|Hne]; [lia|]. rewrite setz_ne in Hx by auto. eauto.
  - intros x n Hx Hl. unfold push1. destruct (Z.eq_dec x q) as [->|Hne].
    + rewrite setz_eq in Hx. injection Hx as <-. rewrite setz_eq, N2. auto.
    + rewrite setz_ne in Hx by auto. rewrite setz_ne by auto. auto.
Qed.
Lemma fds_queue m ns dn up q n : Fds m ns dn up -> ns q = Some n -> m_fdlid m q < 0 -> up q = [MRegister] ->
  Fds (m_setfdst m (setz (m_fdst m) q PsRegReceived)) ns (push dn []) (setz up q []).
Proof.
  intros [F1 F2 F3 F4 F5 F6 F7 F8 F9] En Hl Eu.
  destruct (F5 q n En Hl) as (-> & Ed & [(E1 & E2)|(E1 & E2)]); [|congruence].
  constructor; simpl; auto.
  - intros x Hx. rewrite push_nil. destruct (Z.eq_dec x q) as [->|Hne]; [congruence|]. rewrite !setz_ne by auto. auto.
  - intros x n Hx Hlx. rewrite push_nil. destruct (Z.eq_dec x q) as [->|Hne].
    + rewrite !setz_eq. assert (n = {| np_d := newcomer; np_pc := NReg |}) by congruence. auto.
    + rewrite !setz_ne by auto. auto.
  - intros x. destruct (Z.eq_dec x q) as [->|Hne]; [rewrite setz_eq; auto|]. rewrite setz_ne by auto. auto.
  - intros x. rewrite F8. destruct (Z.eq_dec x q) as [->|Hne]; [|rewrite setz_ne by auto; tauto].
    rewrite setz_eq. split; [intros (A & _); rewrite A in E2; discriminate|]. intros (A & _); discriminate.
Qed.
(* the process on [q] gets the next location ID *)
Lemma fds_accept m ns dn up q n m' out : Fds m ns dn up -> m_reqs m = [] -> 0 <= d_maxid (m_d m) -> ns q = Some n -> m_fdlid m q < 0 -> up q = [MRegister] ->
  accept_fd m q = Ok (m', out) -> Fds m' ns (push dn out) (setz up q []).
Proof.
  intros [F1 F2 F3 F4 F5 F6 F7 F8 F9] Er Hk En Hl Eu Ha.
  destruct (F5 q n En Hl) as (-> & Ed & [(E1 & E2)|(E1 & E2)]); [|congruence].
  unfold accept_fd, cassert in Ha. destruct (_ <? _); [|discriminate]. destruct (negb _); [|discriminate]. injection Ha as <- <-.
  set (k := d_maxid (m_d m) + 1) in *.
  assert (Hp : forall x, x <> q -> push dn [(q, MId k)] x = dn x).
  { intros x Hx. unfold push, sent_to. simpl. destruct (Z.eqb_spec q x); [lia|]. apply app_nil_r. }
  constructor; simpl; auto.
  - intros l H. destruct (Z.eq_dec l k) as [->|Hne].
    + rewrite !setz_eq. split; [eauto|]. eauto.
    + rewrite (setz_ne (m_pfd m)) by auto. destruct (F1 l) as (A & B & C); [lia|]. split; auto. rewrite setz_ne; auto. intros C1. rewrite C1 in B. lia.
  - intros x. destruct (Z.eq_dec x q) as [->|Hne].
    + rewrite setz_eq. rewrite setz_eq. lia.
    + rewrite setz_ne by auto. intros H. destruct (F2 x H) as (A & B). split; [lia|]. rewrite setz_ne by lia. auto.
  - intros x Hx. destruct (F3 x Hx) as (A & B & C & D). assert (x <> q) by congruence. rewrite Hp by auto. rewrite !setz_ne by auto. auto.
  - intros x n Hx. destruct (Z.eq_dec x q) as [->|Hne].
    + rewrite setz_eq. lia.
    + rewrite Hp, !setz_ne by auto. auto.
  - intros x Hx. destruct (Z.eq_dec x q) as [->|Hne]; [rewrite Hx in E2; discriminate|]. rewrite setz_ne by auto. auto.
  - intros x. rewrite F8. destruct (Z.eq_dec x q) as [->|Hne]; [|rewrite setz_ne by auto; tauto]. rewrite setz_eq.
    split; intros (A & _); rewrite A in E2; discriminate.
  - intros x Hx. rewrite setz_ne by lia. apply F9. lia.
Qed.

Definition tos (n : Z) : list Z := filter (fun l => 1 <=? l) (zcount n).
Lemma tos_in n l : In l (tos n) <-> 1 <= l < n.
Proof. unfold tos. rewrite filter_In, zcount_in. lia. Qed.
Lemma tos_nodup n : NoDup (tos n). Proof. apply NoDup_filter, zcount_nodup. Qed.
Lemma tos_len n : 1 <= n -> zlen (tos n) = n - 1.
Proof.
  intros H. unfold tos. replace n with (1 + (n - 1)) at 1 by lia. rewrite zcount_plus by lia. rewrite filter_app.
  replace (filter (fun l : Z => 1 <=? l) (zcount 1)) with (@nil Z) by reflexivity. rewrite filter_true.
  - simpl. rewrite zfrom_len. lia.
  - intros x Hx. apply zfrom_in in Hx. lia.
Qed.
Lemma count_tos f d : count_st f d = zlen (filter (fun l => f (d_peer d l)) (tos (d_maxid d + 1))).
Proof. rewrite count_zlen. unfold tos. rewrite filter_filter. reflexivity. Qed.
Lemma count_all f d : 0 <= d_maxid d -> (forall x, 1 <= x <= d_maxid d -> f (d_peer d x) = true) -> count_st f d = d_maxid d.
Proof.
  intros Hm H. rewrite count_tos, filter_true, tos_len by (try lia; intros x Hx; apply tos_in in Hx; apply H; lia). lia.
Qed.
Lemma count_none f d : (forall x, 1 <= x <= d_maxid d -> f (d_peer d x) = false) -> count_st f d = 0.
Proof. intros H. rewrite count_tos, filter_false; auto. intros x Hx. apply tos_in in Hx. apply H. lia. Qed.
Lemma filter_full (f : Z -> bool) l : zlen (filter f l) = zlen l -> forall x, In x l -> f x = true.
Proof.
  induction l as [|a l IH]; simpl; [tauto|]. intros E x [->|Hx].
  - destruct (f x) eqn:Ef; auto. rewrite zlen_cons in E. pose proof (filter_zlen_le f l). lia.
  - destruct (f a) eqn:Ef; rewrite ?zlen_cons in E.
    + apply IH; auto. lia.
    + pose proof (filter_zlen_le f l). lia.
Qed.

(** a process of the initial world *)
Definition acc (l : Z) : node :=
  mkNode l PsRegAccepted (setz (d_peer newcomer) l PsRegAccepted) (setz (d_loc newcomer) l true) l 0 (-1) (-1) None.
Record Booted (n l : Z) (d : node) : Prop := {
  bo_lid : d_lid d = l;
  bo_st : d_st d = PsReady;
  bo_inst : d_inst d = None;
  bo_phase : d_phase d = -1;
  bo_max : d_maxid d = n - 1;
  bo_peers : d_peers d = n - 1;
  bo_loc : forall x, n <= x -> d_loc d x = false;
  bo_own : d_peer d l = PsReady;
  bo_in : forall x, 0 <= x < n -> x <> l -> d_peer d x = PsNoConnect }.

Lemma got_first l : 0 <= l < max_peers -> node_cmd (MId l) newcomer = Ok (acc l, []).
Proof.
  intros H. cbn [node_cmd]. unfold got_id, cassert. replace ((0 <=? l) && (l <? max_peers)) with true by lia. simpl.
  unfold acc. destruct (-1 <? l) eqn:El; [auto|lia].
Qed.

Lemma drain_boot n l : 1 <= l < n -> n <= max_peers ->
  exists d', drain (map MNewId (filter (fun x => negb (x =? l)) (zcount n)) ++ [MGetready]) (acc l) [] = Ok (d', [MOk]) /\ Booted n l d'.
Proof.
  intros Hl Hn. set (ids := filter (fun x => negb (x =? l)) (zcount n)).
  assert (I1 : forall x, In x ids <-> 0 <= x < n /\ x <> l) by (intros x; unfold ids; rewrite filter_In, zcount_in; lia).
  assert (N1 : NoDup ids) by (apply NoDup_filter, zcount_nodup).
  destruct (drain_ids true [MGetready] ids (acc l) []) as (d1 & D1 & (S1 & S2 & S3 & S4) & St1 & Pe1 & Lo1 & Pn1 & Mx1 & Mx2 & Mx3); auto.
  { simpl. lia. }
  { intros x Hx. apply I1 in Hx. simpl. split; [lia|]. split; [lia|]. rewrite setz_ne by lia. auto. }
  simpl d_lid in *. simpl d_st in *. simpl d_phase in *. simpl d_inst in *. simpl d_maxid in *. simpl d_peers in *.
  exists (set_peer (set_st d1 PsReady) (d_lid d1) PsReady). split.
  { change (idmsg true) with MNewId in D1. rewrite D1. cbn [drain node_cmd obind]. unfold got_getready. rewrite St1. simpl. auto. }
  constructor; simpl; auto.
  - destruct (Z.eq_dec l (n - 1)) as [e|e].
    + destruct Mx3 as [M|M]; [lia|]. apply I1 in M. lia.
    + assert (In (n - 1) ids) as H1 by (apply I1; lia). apply Mx2 in H1. destruct Mx3 as [M|M]; [lia|]. apply I1 in M. lia.
  - rewrite Pn1. assert (zlen ids = zlen (zcount n) - 1); [|rewrite zcount_len in *; lia].
    assert (E : zlen (l :: ids) = zlen (zcount n)); [|rewrite zlen_cons in E; lia].
    unfold zlen. f_equal. apply Permutation.Permutation_length. apply Permutation.NoDup_Permutation.
    + constructor; auto. rewrite I1. tauto.
    + apply zcount_nodup.
    + intros x. simpl. rewrite I1, zcount_in. destruct (Z.eq_dec x l) as [->|]; intuition lia.
  - intros x Hx. rewrite Lo1. replace (zin x ids) with false by (symmetry; apply zin_not; rewrite I1; lia). simpl. rewrite setz_ne by lia. auto.
  - rewrite S1. apply setz_eq.
  - intros x Hx Hne. rewrite S1, setz_ne by auto. rewrite Pe1. replace (zin x ids) with true by (symmetry; apply zin_In, I1; auto). auto.
Qed.

Lemma nth_zcount n r : 0 <= r < n -> nth_error (zcount n) (Z.to_nat r) = Some r.
Proof.
  clear. intros H. unfold zcount. rewrite nth_error_map, (nth_error_nth' _ O) by (rewrite seq_length; lia).
  rewrite seq_nth by lia. simpl. f_equal. lia.
Qed.
Lemma index_zcount n l : 0 <= l < n -> index_of (zcount n) l = l.
Proof.
  clear. intros H. destruct (index_in (zcount n) l) as (A & B); [apply zcount_in; auto|].
  rewrite zcount_len in A. rewrite nth_zcount in B by lia. congruence.
Qed.
Lemma first_ok junk n l : 0 <= l < n -> world_ok n [] l (mkInst 0 0 n (first_world junk n l)).
Proof.
  intros H. assert (E : world_at n [] 0 = zcount n) by reflexivity.
  constructor; simpl; rewrite ?E; auto; try lia.
  - unfold zlen; simpl; lia.
  - unfold group_locs. rewrite <- (map_id (zcount n)) at 2. apply map_ext_in. intros x Hx. apply zcount_in in Hx.
    replace ((0 <=? x) && (x <? n)) with true by lia. auto.
  - rewrite zcount_len. lia.
  - rewrite index_zcount; auto.
Qed.

Lemma init_first junk n l d : Booted n l d -> 1 <= l < n ->
  exists d', node_init junk (got_phase 0 0 d) = Ok d' /\ Settled n [] 0 l d'.
Proof.
  intros [B1 B2 B3 B4 B5 B6 B7 B8 B9] Hl. unfold node_init. cbn [got_phase d_lid d_st d_peer d_loc d_maxid d_peers d_phase d_epoch d_inst].
  set (peer1 := setz _ (d_lid d) PsNoConnect).
  assert (HP : forall x, 0 <= x < n -> peer1 x = PsNoConnect).
  { intros x Hx. unfold peer1. destruct (Z.eq_dec x l) as [->|Hne]; [rewrite B1; apply setz_eq|]. rewrite B1, setz_ne by auto.
    rewrite B9 by auto. destruct (_ && _); auto. }
  rewrite init_count_fold.
  2:{ intros x Hx. apply zcount_in in Hx. rewrite HP by lia. auto. }
  rewrite B5. replace (n - 1 + 1) with n by lia.
  rewrite (filter_true (fun x => is_nc (peer1 x))), (filter_false (fun x => is_old (peer1 x))), (filter_false (fun x => is_rem (peer1 x)))
    by (intros x Hx; apply zcount_in in Hx; rewrite HP by lia; auto).
  change (zlen (@nil Z)) with 0. rewrite zcount_len. cbn [obind]. unfold cassert. replace (d_peers d + 1 =? 0 + 0 + (0 + Z.max 0 n)) with true by lia.
  cbn [Z.add Z.eqb]. replace (d_peers d + 1 - (0 + 0)) with n by lia.
  eexists. split; [reflexivity|]. assert (EW : WL n [] = zcount n) by reflexivity. assert (EN : NL n [] = n) by reflexivity.
  constructor; rewrite ?EW, ?EN; simpl; auto.
  - eexists. split; [reflexivity|]. cbn [i_epoch i_phase i_world]. split; auto. split; auto. rewrite B1. split; [apply first_ok; lia|].
    intros _ x Hx Hn. exfalso. apply Hn, zcount_in. auto.
  - intros x Hx. apply zcount_in in Hx. replace ((0 <=? x) && (x <? n)) with true by lia. auto.
  - intros x Hx Hn. exfalso. apply Hn, zcount_in. auto.
Qed.

Lemma boot_nogo n l d : Booted n l d -> may_go (mkNp d NReg) = false.
Proof. intros R. unfold may_go. simpl. rewrite (bo_phase _ _ _ R). simpl. apply andb_false_r. Qed.
Lemma arrive_first junk n l np : Booted n l (np_d np) -> np_pc np = NReg -> 1 <= l < n ->
  arrives junk (Settled n [] 0 l) np [MPhase 0 0].
Proof.
  intros HR Hpc Hl. destruct (init_first junk n l (np_d np) HR Hl) as (d' & E & HQ).
  destruct np as [d pc]. simpl in Hpc. subst pc. cbn [np_d] in *. split.
  - right. eexists. eexists. split; [reflexivity|]. split; [discriminate|]. eapply boot_nogo; eauto.
  - exists (mkNp d' NApp). split; [|auto]. rewrite fut_phase. cbn [np_d np_pc]. rewrite fut_go.
    + unfold go_node. cbn [np_pc np_d]. rewrite E. reflexivity.
    + unfold may_go. simpl. rewrite (bo_st _ _ _ HR). reflexivity.
Qed.

Lemma fin_fold L d : NoDup L -> (forall x, In x L -> d_peer d x = PsRegAccepted) ->
  exists d', ofold fin_step L d = Ok d' /\ d_lid d' = d_lid d /\ d_maxid d' = d_maxid d /\ d_peers d' = d_peers d /\ d_phase d' = d_phase d /\
    d_epoch d' = d_epoch d /\ d_loc d' = d_loc d /\ forall x, d_peer d' x = if zin x L then PsRegFinishing else d_peer d x.
Proof.
  revert d. induction L as [|y L IH]; intros d ND H.
  - exists d. simpl. auto 8.
  - inversion ND; subst. cbn [ofold].
    assert (Ey : fin_step d y = Ok (set_peer d y PsRegFinishing)) by (unfold fin_step; rewrite H by (left; auto); auto).
    rewrite Ey. cbn [obind].
    destruct (IH (set_peer d y PsRegFinishing)) as (d' & E & B1 & B2 & B3 & B4 & B5 & B6 & B7); auto.
    { intros x Hx. simpl. rewrite setz_ne by (intros ->; tauto). apply H. right; auto. }
    exists d'. split; auto. rewrite B1, B2, B3, B4, B5, B6. simpl. do 6 (split; auto).
    intros x. rewrite B7. simpl. destruct (Z.eqb_spec x y) as [->|Hne]; simpl.
    + rewrite setz_eq. destruct (zin y L); auto.
    + rewrite setz_ne by auto. auto.
Qed.

Section Startup.
  Variables (next junk : Z -> Z) (n0 : Z).
  Hypothesis Hn0 : 1 <= n0 <= max_peers.

  (* a process which has got a location ID, before the master goes on *)
  Definition sessT (l : Z) (n : nproc) (dn up : list msg) : Prop :=
    np_pc n = NReg /\ up = [] /\ ((dn = [MId l] /\ np_d n = newcomer) \/ (dn = [] /\ np_d n = acc l)).

  Record RegM (st : mst) (regs : list Z) (m : master) (ns : Z -> option nproc) (dn up : Z -> list msg) : Prop := {
    g_reqs : m_reqs m = [];
    g_lid : d_lid (m_d m) = 0;
    g_peers : d_peers (m_d m) = d_maxid (m_d m);
    g_max : 0 <= d_maxid (m_d m) <= n0 - 1;
    g_st : st = if (d_maxid (m_d m) + 1 =? n0) && negb (n0 =? 1) then StOk else StReg;
    g_ph : d_phase (m_d m) = 0 /\ d_epoch (m_d m) = 0;
    g_ready : m_ready m = 0 /\ m_dead m = 0;
    g_acc : forall x, 1 <= x <= d_maxid (m_d m) -> d_peer (m_d m) x = PsRegAccepted;
    g_queue : st = StReg -> forall q, is_reg (m_fdst m q) = false;
    g_regs : st = StReg -> zlen regs = d_maxid (m_d m);
    g_give : forall q, m_fdlid m q = first_lids n0 regs q;
    g_full : st = StOk -> n0 - 1 <= zlen regs;
    g_sess : forall q n, ns q = Some n -> 0 <= m_fdlid m q -> sessT (m_fdlid m q) n (dn q) (up q) }.

  Record OkM (st : mst) (regs : list Z) (m : master) (ns : Z -> option nproc) (dn up : Z -> list msg) : Prop := {
    k_reqs : m_reqs m = [];
    k_lid : d_lid (m_d m) = 0;
    k_peers : d_peers (m_d m) = n0 - 1;
    k_max : d_maxid (m_d m) = n0 - 1;
    k_n : 2 <= n0;
    k_st : st = if m_ready m + 1 =? n0 then StReady else StOk;
    k_ph : d_phase (m_d m) = 0 /\ d_epoch (m_d m) = 0;
    k_ready : m_ready m = count_st is_ready (m_d m) /\ m_dead m = 0;
    k_fin : forall x, 1 <= x < n0 -> d_peer (m_d m) x = PsRegFinishing \/ d_peer (m_d m) x = PsReady;
    k_give : forall q, m_fdlid m q = first_lids n0 regs q;
    k_full : n0 - 1 <= zlen regs;
    k_sess : forall q n, ns q = Some n -> 0 <= m_fdlid m q ->
      sessB (Booted n0 (m_fdlid m q)) (is_conf (d_peer (m_d m) (m_fdlid m q))) NReg n (dn q) (up q) }.

  Definition TInv (t : tsys) (regs : list Z) : Prop :=
    let s := t_s t in
    s_mpc s = MApp /\ Fds (s_m s) (s_n s) (s_down s) (s_up s) /\
    match t_pc t with
    | TReg => RegM (t_st t) regs (s_m s) (s_n s) (s_down s) (s_up s)
    | TOk => OkM (t_st t) regs (s_m s) (s_n s) (s_down s) (s_up s)
    | TDone => (forall q, m_fdlid (s_m s) q = first_lids n0 regs q) /\
               OpenM next junk n0 [] 0 false (s_m s) (s_n s) (s_down s) (s_up s)
    end.

  Lemma tinv_start : TInv tstart [].
  Proof.
    unfold TInv, tstart. simpl. split; auto. split.
    - constructor; simpl; try tauto; try lia.
      + intros q _. repeat split; auto; lia.
      + discriminate.
      + intros q n H. discriminate.
      + constructor.
      + intros q. split; [tauto|]. intros (C & _). discriminate.
    - constructor; simpl; auto; try lia.
      + replace ((0 + 1 =? n0) && negb (n0 =? 1)) with false by lia. reflexivity.
      + intros q. unfold first_lids. rewrite firstn_nil. auto.
      + discriminate.
  Qed.

  (* RegM and OkM depend on registered processes only *)
  Lemma reg_ext st regs m ns dn up ns' dn' up' : RegM st regs m ns dn up ->
    (forall q n, ns' q = Some n -> 0 <= m_fdlid m q -> ns q = Some n /\ dn' q = dn q /\ up' q = up q) ->
    RegM st regs m ns' dn' up'.
  Proof. intros HM HE. destruct HM; constructor; auto. intros q n Hn Hl. destruct (HE q n Hn Hl) as (A & -> & ->). auto. Qed.
  Lemma ok_ext st regs m ns dn up ns' dn' up' : OkM st regs m ns dn up ->
    (forall q n, ns' q = Some n -> 0 <= m_fdlid m q -> ns q = Some n /\ dn' q = dn q /\ up' q = up q) ->
    OkM st regs m ns' dn' up'.
  Proof. intros HM HE. destruct HM; constructor; auto. intros q n Hn Hl. destruct (HE q n Hn Hl) as (A & -> & ->). auto. Qed.

  Lemma tinv_join t regs q r : TInv t regs -> texec junk n0 t (TJoin q) = Some r -> exists t', r = Ok t' /\ TInv t' regs.
  Proof.
    intros (Hpc & HF & HM) He. unfold texec in He.
    assert (He' : t_pc t <> TDone /\ t_lift t (exec (fun p => p) junk (t_s t) (EvJoin q)) = Some r) by (destruct (t_pc t); split; auto; discriminate).
    destruct He' as (Hnd & He'). cbn [exec] in He'. clear He. destruct (s_n (t_s t) q) eqn:En; [discriminate|].
    destruct ((0 <? q) && (q <? max_fds)) eqn:Eq; [|discriminate]. injection He' as <-. cbn [obind]. eexists. split; [reflexivity|].
    unfold TInv, with_n. simpl. split; auto. split; [apply fds_join; auto; lia|]. destruct (f_none _ _ _ _ HF q En) as (N1 & N2 & N3 & N4).
    assert (HE : forall x n, setz (s_n (t_s t)) q (Some (mkNp newcomer NReg)) x = Some n -> 0 <= m_fdlid (s_m (t_s t)) x ->
       s_n (t_s t) x = Some n /\ s_down (t_s t) x = s_down (t_s t) x /\ push1 (s_up (t_s t)) q [MRegister] x = s_up (t_s t) x).
    { intros x n Hx Hl. unfold push1. destruct (Z.eq_dec x q) as [->|Hne]; [lia|]. rewrite setz_ne in Hx by auto. rewrite setz_ne by auto. auto. }
    destruct (t_pc t); [eapply reg_ext; eauto|eapply ok_ext; eauto|tauto].
  Qed.

  Lemma tinv_down t regs q r : TInv t regs -> texec junk n0 t (TDown q) = Some r -> exists t', r = Ok t' /\ TInv t' regs.
  Proof.
    intros (Hpc & HF & HM) He. unfold texec in He.
    assert (He' : t_pc t <> TDone /\ t_lift t (exec (fun p => p) junk (t_s t) (EvDown q)) = Some r) by (destruct (t_pc t); split; auto; discriminate).
    destruct He' as (Hnd & He'). clear He. destruct (exec (fun p => p) junk (t_s t) (EvDown q)) as [r0|] eqn:He; [|discriminate].
    injection He' as <-. destruct (exec_local _ _ _ _ _ _ (eq_refl : ev_proc (EvDown q) = Some q) He) as (n & lr & En & El & Hr).
    set (s := t_s t) in *.
    destruct (Z_lt_le_dec (m_fdlid (s_m s) q) 0) as [Hl|Hl].
    { exfalso. destruct (f_unreg _ _ _ _ HF q n En Hl) as (-> & Ed & _). rewrite Ed in El. discriminate. }
    destruct (f_lid _ _ _ _ HF q Hl) as (HL & _).
    assert (HS : exists n' dn' out, lr = Ok (n', dn', out) /\
       match t_pc t with
       | TReg => sessT (m_fdlid (s_m s) q) n' dn' (s_up s q ++ out)
       | TOk => sessB (Booted n0 (m_fdlid (s_m s) q)) (is_conf (d_peer (m_d (s_m s)) (m_fdlid (s_m s) q))) NReg n' dn' (s_up s q ++ out)
       | TDone => True
       end).
    { destruct (t_pc t).
      - destruct (g_sess _ _ _ _ _ _ HM q n En Hl) as (Ep & Eu & [(Ed & Enp)|(Ed & Enp)]); rewrite Ed in El; [|discriminate].
        cbn [local] in El. rewrite Enp, got_first in El by (pose proof (g_max _ _ _ _ _ _ HM); lia). cbn [obind fst snd] in El. injection El as <-.
        eexists. eexists. eexists. split; [reflexivity|]. rewrite Eu. split; auto.
      - pose proof (k_sess _ _ _ _ _ _ HM q n En Hl) as HS.
        apply (local_B (fun p => p) junk n0 (Booted n0 (m_fdlid (s_m s) q)) _ NReg (EvDown q) q n (s_down s q)); auto; try discriminate.
        + intros d. apply boot_nogo.
        + intros d d' E1 E2 E3 _. unfold may_go in *. simpl in *. rewrite E1, E3. simpl. apply andb_false_r.
        + intros d R. apply (bo_phase _ _ _ R).
      - tauto. }
    destruct HS as (n' & dn' & out & E & HS). destruct (Hr _ _ _ E) as (s' & -> & U). cbn [obind]. eexists. split; [reflexivity|].
    unfold TInv. cbn [t_s t_st t_pc]. pose proof (fds_upd (fun _ => 0) junk ltac:(intros; lia) _ _ _ _ _ _ Hl U HF (ex_intro _ n En)) as HF'.
    destruct U as (U1 & U2 & U3 & U4 & U5 & U6). split; [congruence|]. split; [exact HF'|]. rewrite U1.
    destruct (t_pc t); [..|tauto].
    - destruct HM; constructor; auto. intros x nx Hx Hlx. destruct (Z.eq_dec x q) as [->|Hne].
      + rewrite U3 in Hx. injection Hx as <-. rewrite U4, U5. auto.
      + destruct (U6 x Hne) as (E1 & E2 & E3). rewrite E1 in Hx. rewrite E2, E3. auto.
    - destruct HM; constructor; auto. intros x nx Hx Hlx. destruct (Z.eq_dec x q) as [->|Hne].
      + rewrite U3 in Hx. injection Hx as <-. rewrite U4, U5. auto.
      + destruct (U6 x Hne) as (E1 & E2 & E3). rewrite E1 in Hx. rewrite E2, E3. auto.
  Qed.

  Lemma first_more regs q x : n0 - 1 <= zlen regs -> first_lids n0 (regs ++ [q]) x = first_lids n0 regs x.
  Proof. intros H. unfold first_lids, zlen in *. rewrite firstn_grow by lia. auto. Qed.
  Lemma first_next regs q x : zlen regs < n0 - 1 -> first_lids n0 (regs ++ [q]) x = setz (first_lids n0 regs) q (zlen regs + 1) x.
  Proof.
    intros H. unfold first_lids, zlen in *. rewrite !firstn_all2 by (rewrite ?app_length; simpl; lia).
    rewrite give_snoc. unfold zlen. f_equal. lia.
  Qed.

  Lemma tinv_up t regs q r : TInv t regs -> texec junk n0 t (TUp q) = Some r ->
    exists t', r = Ok t' /\ TInv t' (regs ++ registers t (TUp q)).
  Proof.
    intros (Hpc & HF & HM) He. unfold texec in He. set (s := t_s t) in *.
    assert (He' : t_pc t <> TDone /\ n0 <> 1 /\ exists c rest, s_up s q = c :: rest /\
       (do r <- t_cmd n0 (t_st t) (s_m s) q c;
        let '(m', st', out) := r in
        Ok (mkT (with_m (mkSys (s_m s) MApp (s_n s) (s_down s) (setz (s_up s) q rest)) m' MApp out) st' (t_pc t))) = r).
    { destruct (t_pc t); [..|discriminate]; (split; [discriminate|]); destruct (Z.eqb_spec n0 1); try discriminate;
        destruct (s_up s q) as [|c rest]; try discriminate; injection He as <-; eauto. }
    clear He. destruct He' as (Hnd & Hn1 & c & rest & Eu & <-).
    destruct (s_n s q) as [n|] eqn:En; [|destruct (f_none _ _ _ _ HF q En) as (_ & E & _); congruence].
    unfold registers. fold s. rewrite Eu.
    destruct (Z_lt_le_dec (m_fdlid (s_m s) q) 0) as [Hl|Hl].
    - (* register *)
      destruct (f_unreg _ _ _ _ HF q n En Hl) as (-> & Ed & [(E1 & E2)|(E1 & E2)]); [|congruence]. rewrite Eu in E1. injection E1 as -> ->.
      cbn [t_cmd]. replace (0 <=? m_fdlid (s_m s) q) with false by lia.
      assert (HQ : t_st t <> StReg -> (match t_st t with StReg => do r <- accept_fd (s_m s) q; Ok (fst r, (if d_peers (m_d (fst r)) + 1 =? n0 then StOk else StReg), snd r) | _ => match m_fdst (s_m s) q with
                | PsRegReceived | PsRegReceived2 => Abort
                | _ => Ok (m_setfdst (s_m s) (setz (m_fdst (s_m s)) q PsRegReceived), t_st t, [])
                end end) = Ok (m_setfdst (s_m s) (setz (m_fdst (s_m s)) q PsRegReceived), t_st t, [])).
      { intros H. destruct (t_st t); [tauto|..]; destruct (m_fdst (s_m s) q); auto; discriminate. }
      destruct (t_pc t) eqn:Epc; [..|tauto].
      + destruct (t_st t) eqn:Est.
        * (* accepted *)
          clear HQ. pose proof HM as [G1 G2 G3 G4 G5 G6 G7 G8 G9 G10 G11 G12 G13].
          assert (Hk : d_maxid (m_d (s_m s)) < n0 - 1).
          { destruct ((d_maxid (m_d (s_m s)) + 1 =? n0) && negb (n0 =? 1)) eqn:E; [discriminate|]. lia. }
          assert (Hloc : d_loc (m_d (s_m s)) (d_maxid (m_d (s_m s)) + 1) = false) by (apply (f_loc _ _ _ _ HF); lia).
          destruct (accept_fd (s_m s) q) as [[m' out]| | | |] eqn:Ea;
            try (exfalso; unfold accept_fd, cassert in Ea; rewrite Hloc in Ea; replace (d_maxid (m_d (s_m s)) + 1 <? max_peers) with true in Ea by lia; discriminate).
          cbn [obind fst snd]. eexists. split; [reflexivity|]. unfold TInv. cbn [t_s t_st t_pc with_m s_m s_mpc s_n s_down s_up]. split; auto.
          split; [eapply fds_accept; eauto; lia|].
          unfold accept_fd, cassert in Ea. rewrite Hloc in Ea. replace (d_maxid (m_d (s_m s)) + 1 <? max_peers) with true in Ea by lia. injection Ea as <- <-.
          cbn [m_d d_peers d_maxid d_lid d_phase d_epoch d_peer m_reqs m_fdst m_fdlid m_ready m_dead]. specialize (G10 eq_refl).
          constructor; cbn [m_d d_peers d_maxid d_lid d_phase d_epoch d_peer m_reqs m_fdst m_fdlid m_ready m_dead]; auto; try lia.
          -- rewrite G3. replace (n0 =? 1) with false by lia. rewrite andb_true_r. auto.
          -- intros x Hx. destruct (Z.eq_dec x (d_maxid (m_d (s_m s)) + 1)) as [->|Hne]; [apply setz_eq|]. rewrite setz_ne by auto. apply G8. lia.
          -- intros _. rewrite zlen_app, zlen_cons, zlen_nil. lia.
          -- intros x. rewrite first_next by lia. rewrite G10. unfold setz. destruct (x =? q); auto.
          -- intros E. rewrite zlen_app, zlen_cons, zlen_nil. destruct (d_peers (m_d (s_m s)) + 1 + 1 =? n0) eqn:Ek; [lia|discriminate].
          -- intros x nx Hx Hlx. destruct (Z.eq_dec x q) as [->|Hne].
             ++ rewrite En in Hx. injection Hx as <-. rewrite !setz_eq. split; auto. split; auto. left. split; auto.
                unfold push, sent_to. simpl. rewrite Z.eqb_refl, Ed. auto.
             ++ rewrite setz_ne in Hlx |- * by auto. rewrite setz_ne by auto. unfold push, sent_to. simpl. destruct (Z.eqb_spec q x); [lia|]. simpl. rewrite app_nil_r. auto.
        * rewrite HQ by discriminate. cbn [obind]. eexists. split; [reflexivity|]. unfold TInv. cbn [t_s t_st t_pc with_m s_m s_mpc s_n s_down s_up]. split; auto.
          split; [eapply fds_queue; eauto|]. pose proof HM as [G1 G2 G3 G4 G5 G6 G7 G8 G9 G10 G11 G12 G13].
          constructor; cbn [m_setfdst m_d m_reqs m_fdst m_fdlid m_ready m_dead]; auto; try discriminate.
          -- intros x. rewrite first_more by auto. auto.
          -- intros _. rewrite zlen_app, zlen_cons, zlen_nil. specialize (G12 eq_refl). lia.
          -- intros x nx Hx Hlx. rewrite push_nil, setz_ne by (intros ->; lia). auto.
        * pose proof (g_st _ _ _ _ _ _ HM) as G. destruct (_ && _); discriminate.
      + rewrite HQ by (rewrite (k_st _ _ _ _ _ _ HM); destruct (_ =? _); discriminate).
        cbn [obind]. eexists. split; [reflexivity|]. unfold TInv. cbn [t_s t_st t_pc with_m s_m s_mpc s_n s_down s_up]. split; auto.
        split; [eapply fds_queue; eauto|]. pose proof HM as [K1 K2 K3 K4 K5 K6 K7 K8 K9 K10 K11 K12].
        constructor; cbn [m_setfdst m_d m_reqs m_fdst m_fdlid m_ready m_dead]; auto; try discriminate.
        * intros x. rewrite first_more by auto. auto.
        * rewrite zlen_app, zlen_cons, zlen_nil. lia.
        * intros x nx Hx Hlx. rewrite push_nil, setz_ne by (intros ->; lia). auto.
    - (* ok *)
      destruct (f_lid _ _ _ _ HF q Hl) as (HL & _).
      destruct (t_pc t) eqn:Epc; [|..|tauto].
      { destruct (g_sess _ _ _ _ _ _ HM q n En Hl) as (_ & C & _). congruence. }
      pose proof HM as [K1 K2 K3 K4 K5 K6 K7 K8 K9 K10 K11 K12]. pose proof (K12 q n En Hl) as HS. rewrite Eu in HS. set (l := m_fdlid (s_m s) q) in *.
      assert (Hp : d_peer (m_d (s_m s)) l = PsRegFinishing).
      { destruct (K9 l ltac:(lia)) as [E|E]; auto. exfalso. rewrite E in HS. destruct HS as (_ & _ & C & _). discriminate. }
      rewrite Hp in HS. destruct HS as (HS1 & (d' & Dr & HB) & [(pre & _ & _ & C)|(Ed & C)]); [discriminate|]. injection C as -> ->.
      cbn [t_cmd]. fold l. replace (l <? 0) with false by lia. rewrite Hp. cbn [obind].
      assert (Ego : got_ok (s_m s) l = mkMaster (set_peer (m_d (s_m s)) l PsReady) (m_ready (s_m s) + 1) (m_dead (s_m s)) (m_fdst (s_m s)) (m_fdlid (s_m s)) (m_pfd (s_m s)) (m_reqs (s_m s))).
      { unfold got_ok. rewrite Hp. reflexivity. }
      rewrite Ego. cbn [m_ready]. eexists. split; [reflexivity|]. unfold TInv. cbn [t_s t_st t_pc with_m s_m s_mpc s_n s_down s_up]. split; auto.
      split; [eapply fds_up; eauto; apply fds_peer; auto|]. rewrite app_nil_r.
      assert (Ec : count_st is_ready (set_peer (m_d (s_m s)) l PsReady) = m_ready (s_m s) + 1).
      { destruct K8 as (-> & _). apply count_one; auto; try lia. rewrite Hp. auto. }
      assert (Hlt : m_ready (s_m s) + 1 < n0).
      { assert (count_st is_ready (set_peer (m_d (s_m s)) l PsReady) <= n0 - 1); [|lia]. rewrite count_tos.
        cbn [set_peer d_maxid]. rewrite K4. replace (n0 - 1 + 1) with n0 by lia. rewrite <- (tos_len n0) by lia. apply filter_zlen_le. }
      constructor; cbn [m_d set_peer d_peers d_maxid d_lid d_phase d_epoch d_peer m_reqs m_fdst m_fdlid m_ready m_dead]; auto.
      + rewrite K6. replace (m_ready (s_m s) + 1 =? n0) with false by lia. auto.
      + split; [auto|tauto].
      + intros x Hx. destruct (Z.eq_dec x l) as [->|Hne]; [rewrite setz_eq; auto|]. rewrite setz_ne by auto. auto.
      + intros x nx Hx Hlx. rewrite push_nil. destruct (Z.eq_dec x q) as [->|Hne].
        * rewrite En in Hx. injection Hx as <-. fold l. rewrite !setz_eq. split; auto. simpl. rewrite Ed in Dr. simpl in Dr. injection Dr as <-. rewrite Ed. auto.
        * rewrite (setz_ne (s_up s)) by auto. rewrite setz_ne; [auto|]. intros C. apply Hne. eapply lid_inj; eauto.
  Qed.

  (* the end of startup *)
  Lemma final_open m ns dn up regs : Fds m ns dn up -> d_lid (m_d m) = 0 -> d_maxid (m_d m) = n0 - 1 -> d_phase (m_d m) = 0 -> d_epoch (m_d m) = 0 ->
    m_ready m = n0 - 1 -> m_dead m = 0 -> (forall q, m_fdlid m q = first_lids n0 regs q) ->
    (forall q n, ns q = Some n -> 0 <= m_fdlid m q -> up q = [] /\ arrives junk (Settled n0 [] 0 (m_fdlid m q)) n (dn q)) ->
    exists m', t_final junk n0 m = Ok m' /\ Fds m' ns dn up /\ (forall q, m_fdlid m' q = first_lids n0 regs q) /\ OpenM next junk n0 [] 0 false m' ns dn up.
  Proof.
    intros HF Hl Hm Hp He Hr Hd Hg HS. unfold t_final, cassert. rewrite Hm. replace (n0 =? n0 - 1 + 1) with true by lia.
    eexists. split; [reflexivity|]. rewrite Hl, Hp, He. replace (n0 - 1 + 1) with n0 by lia.
    assert (EW : WL n0 [] = zcount n0) by reflexivity. assert (EN : NL n0 [] = n0) by reflexivity.
    set (d := mkNode _ _ _ _ _ _ _ _ _). assert (HPs : forall x, 0 <= x < n0 -> d_peer d x = PsReady).
    { intros x Hx. unfold d. simpl. replace ((0 <=? x) && (x <? n0)) with true by lia. auto. }
    assert (Hmd : d_maxid d = n0 - 1) by reflexivity.
    split; [apply (fds_peer m ns dn up d); auto; rewrite Hmd; auto|]. split; [exact Hg|].
    constructor; rewrite ?EW, ?EN; cbn [m_setd m_d m_ready m_dead m_fdlid]; auto.
    - apply zcount_in. lia.
    - lia.
    - eexists. split; [reflexivity|]. cbn [i_epoch i_phase i_world]. split; auto. split; auto. split; [apply first_ok; lia|]. split; [discriminate|].
      intros _ x Hx Hn. exfalso. apply Hn, zcount_in. auto.
    - discriminate.
    - intros x Hx. apply zcount_in in Hx. auto.
    - intros x Hx Hn. exfalso. apply Hn, zcount_in. auto.
    - rewrite Hr. symmetry. rewrite count_all; auto; try lia. intros x Hx. rewrite HPs by lia. auto.
    - rewrite Hd. symmetry. apply count_none. intros x Hx. rewrite HPs by lia. auto.
    - intros q n Hn Hlq. destruct (f_lid _ _ _ _ HF q Hlq) as (HL & _). cbv zeta.
      replace (zin (m_fdlid m q) (zcount n0)) with true by (symmetry; apply zin_In, zcount_in; lia). rewrite HPs by lia. left. auto.
  Qed.

  Lemma tinv_go t regs r : TInv t regs -> texec junk n0 t TGo = Some r ->
    exists t', r = Ok t' /\ TInv t' regs /\ t_pc t' = match t_pc t with TReg => if n0 =? 1 then TDone else TOk | _ => TDone end.
  Proof.
    intros (Hpc & HF & HM) He. unfold texec in He. set (s := t_s t) in *. destruct (t_pc t) eqn:Epc; [..|discriminate].
    - pose proof HM as [G1 G2 G3 G4 G5 G6 G7 G8 G9 G10 G11 G12 G13]. destruct (Z.eqb_spec n0 1) as [E1|E1].
      + injection He as <-.
        destruct (final_open (s_m s) (s_n s) (s_down s) (s_up s) regs) as (m' & E & HF' & HG & HO); auto; try lia; try tauto.
        { intros q n Hn Hl. destruct (f_lid _ _ _ _ HF q Hl). lia. }
        rewrite E. cbn [obind]. eexists. split; [reflexivity|]. split; [|auto]. unfold TInv. cbn [t_s t_st t_pc with_m s_m s_mpc s_n s_down s_up]. split; auto.
        assert (Ex : forall q, push (s_down s) [] q = s_down s q) by (intros; apply push_nil).
        split; [eapply fds_ext; [..|exact HF']; auto|]. split; auto.
        apply (mode_ext next junk n0 [] 0 MApp m' (s_n s) (s_down s) (s_up s)); auto.
      + destruct (t_st t) eqn:Est; [discriminate| |destruct (_ && _); discriminate]. injection He as <-.
        assert (Hk : d_maxid (m_d (s_m s)) = n0 - 1) by (destruct (Z.eqb_spec (d_maxid (m_d (s_m s)) + 1) n0); simpl in G5; [lia|discriminate]).
        unfold t_mid, cassert. rewrite G3, Hk. replace (n0 - 1 + 1) with n0 by lia. rewrite Z.eqb_refl. fold (tos n0).
        destruct (fin_fold (tos n0) (m_d (s_m s)) (tos_nodup n0)) as (d' & E & B1 & B2 & B3 & B4 & B5 & B6 & B7).
        { intros x Hx. apply tos_in in Hx. apply G8. lia. }
        rewrite E. cbn [obind fst snd]. set (msgs := fun to => map MNewId (filter (fun l => negb (l =? to)) (zcount n0)) ++ [MGetready]).
        set (out := flat_map _ (tos n0)).
        assert (S1 : forall q, m_fdlid (s_m s) q < 0 \/ s_n s q = None -> sent_to q out = []).
        { intros q Hq. apply (sent_flat_none q (m_pfd (s_m s)) msgs). intros u Hu Eq. apply tos_in in Hu. destruct (f_range _ _ _ _ HF u ltac:(lia)) as (_ & X1 & n & X2).
          rewrite Eq in X1, X2. destruct Hq; [lia|congruence]. }
        assert (S2 : forall q, 0 <= m_fdlid (s_m s) q -> sent_to q out = msgs (m_fdlid (s_m s) q)).
        { intros q Hq. destruct (f_lid _ _ _ _ HF q Hq) as (X1 & X2). apply (sent_flat_one q (m_pfd (s_m s)) msgs (tos n0) (m_fdlid (s_m s) q)); auto using tos_nodup.
          - apply tos_in. lia.
          - intros u Hu Eq. apply tos_in in Hu. destruct (f_range _ _ _ _ HF u ltac:(lia)) as (_ & X3 & _). rewrite <- X3, Eq. auto. }
        eexists. split; [reflexivity|]. split; [|reflexivity]. unfold TInv. cbn [t_s t_st t_pc with_m s_m s_mpc s_n s_down s_up]. split; auto.
        assert (HFin : forall x, 1 <= x < n0 -> d_peer d' x = PsRegFinishing).
        { intros x Hx. rewrite B7. replace (zin x (tos n0)) with true by (symmetry; apply zin_In, tos_in; auto). auto. }
        split.
        { pose proof HF as [F1 F2 F3 F4 F5 F6 F7 F8 F9]. constructor; cbn [m_setd m_d m_fdst m_fdlid m_pfd m_reqs]; rewrite ?B2, ?B6; auto.
          - intros q Hq. destruct (F3 q Hq) as (Y1 & Y2 & Y3 & Y4). unfold push. rewrite S1 by auto. rewrite Y1. auto.
          - intros q n Hn Hl. destruct (F5 q n Hn Hl) as (Y1 & Y2 & Y3). unfold push. rewrite S1 by auto. rewrite Y2. auto. }
        constructor; cbn [m_setd m_d m_fdst m_fdlid m_pfd m_reqs m_ready m_dead]; rewrite ?B1, ?B2, ?B3, ?B4, ?B5; auto; try lia.
        * replace (m_ready (s_m s) + 1 =? n0) with false by lia. auto.
        * rewrite count_none; [tauto|]. intros x Hx. rewrite HFin by lia. auto.
        * intros q n Hn Hl. destruct (f_lid _ _ _ _ HF q Hl) as (HL & _). rewrite HFin by lia. unfold push. rewrite S2 by auto.
          destruct (G13 q n Hn Hl) as (P1 & P2 & P3). split; auto. rewrite P2. set (l := m_fdlid (s_m s) q) in *.
          destruct (drain_boot n0 l ltac:(lia) ltac:(lia)) as (d1 & D1 & HB). fold (msgs l) in D1. simpl is_conf. cbv iota. split.
          -- exists d1. split; auto. destruct P3 as [(-> & ->)|(-> & ->)]; auto. cbn [drain app]. rewrite got_first by lia. cbn [obind fst snd app]. auto.
          -- left. exists (s_down s q ++ map MNewId (filter (fun x => negb (x =? l)) (zcount n0))). split; [unfold msgs; rewrite app_assoc; auto|]. split; auto.
             apply Forall_app. split; [|apply Forall_forall; intros c Hc; apply in_map_iff in Hc; destruct Hc as (x & <- & _); exact Logic.I].
             destruct P3 as [(-> & _)|(-> & _)]; repeat constructor.
    - pose proof HM as [K1 K2 K3 K4 K5 K6 K7 K8 K9 K10 K11 K12]. destruct (Z.eqb_spec (m_ready (s_m s) + 1) n0) as [Er|Er]; [|rewrite K6 in He; discriminate].
      rewrite K6 in He. injection He as <-. unfold t_end, cassert. rewrite Er, Z.eqb_refl, K4. replace (n0 - 1 + 1) with n0 by lia. fold (tos n0).
      assert (HR : forall x, 1 <= x < n0 -> d_peer (m_d (s_m s)) x = PsReady).
      { intros x Hx. destruct K8 as (K8 & _). rewrite count_tos, K4 in K8. replace (n0 - 1 + 1) with n0 in K8 by lia.
        assert (C : is_ready (d_peer (m_d (s_m s)) x) = true).
        { apply (filter_full (fun l => is_ready (d_peer (m_d (s_m s)) l)) (tos n0)); [rewrite tos_len; lia|apply tos_in; auto]. }
        destruct (d_peer (m_d (s_m s)) x); auto; discriminate. }
      replace (forallb _ (tos n0)) with true by (symmetry; apply forallb_forall; intros x Hx; apply tos_in in Hx; rewrite HR by auto; auto).
      set (out := map (fun l => (m_pfd (s_m s) l, MPhase 0 0)) (tos n0)).
      assert (Eout : out = flat_map (fun u => map (fun c => (m_pfd (s_m s) u, c)) [MPhase 0 0]) (tos n0)).
      { unfold out. symmetry. apply (flat_single (fun u => (m_pfd (s_m s) u, MPhase 0 0))). }
      assert (S1 : forall q, m_fdlid (s_m s) q < 0 \/ s_n s q = None -> sent_to q out = []).
      { intros q Hq. rewrite Eout. apply (sent_flat_none q (m_pfd (s_m s)) (fun _ => [MPhase 0 0])). intros u Hu Eq. apply tos_in in Hu. destruct (f_range _ _ _ _ HF u ltac:(lia)) as (_ & X1 & n & X2).
        rewrite Eq in X1, X2. destruct Hq; [lia|congruence]. }
      assert (S2 : forall q, 0 <= m_fdlid (s_m s) q -> sent_to q out = [MPhase 0 0]).
      { intros q Hq. rewrite Eout. destruct (f_lid _ _ _ _ HF q Hq) as (X1 & X2). apply (sent_flat_one q (m_pfd (s_m s)) (fun _ => [MPhase 0 0]) (tos n0) (m_fdlid (s_m s) q)); auto using tos_nodup.
        - apply tos_in. lia.
        - intros u Hu Eq. apply tos_in in Hu. destruct (f_range _ _ _ _ HF u ltac:(lia)) as (_ & X3 & _). rewrite <- X3, Eq. auto. }
      assert (HF1 : Fds (s_m s) (s_n s) (push (s_down s) out) (s_up s)).
      { pose proof HF as [F1 F2 F3 F4 F5 F6 F7 F8 F9]. constructor; auto.
        - intros q Hq. destruct (F3 q Hq) as (Y1 & Y2 & Y3 & Y4). unfold push. rewrite S1 by auto. rewrite Y1. auto.
        - intros q n Hn Hl. destruct (F5 q n Hn Hl) as (Y1 & Y2 & Y3). unfold push. rewrite S1 by auto. rewrite Y2. auto. }
      destruct (final_open (s_m s) (s_n s) (push (s_down s) out) (s_up s) regs) as (m' & E & HF' & HG & HO); auto; try lia; try tauto.
      { intros q n Hn Hl. destruct (f_lid _ _ _ _ HF q Hl) as (HL & _). pose proof (K12 q n Hn Hl) as HS. rewrite HR in HS by lia.
        destruct HS as (P1 & P2 & P3 & P4). split; auto. unfold push. rewrite P2, S2 by auto. simpl. apply arrive_first; auto. lia. }
      rewrite E. cbn [obind fst snd]. eexists. split; [reflexivity|]. split; [|reflexivity]. unfold TInv. cbn [t_s t_st t_pc with_m s_m s_mpc s_n s_down s_up]. split; auto.
  Qed.

  Lemma tinv_exec t regs ev r : TInv t regs -> texec junk n0 t ev = Some r -> exists t', r = Ok t' /\ TInv t' (regs ++ registers t ev).
  Proof.
    intros HI He. destruct ev.
    - rewrite app_nil_r. eapply tinv_join; eauto.
    - rewrite app_nil_r. eapply tinv_down; eauto.
    - eapply tinv_up; eauto.
    - rewrite app_nil_r. destruct (tinv_go _ _ _ HI He) as (t' & E & HI' & _). eauto.
  Qed.
  Lemma treach_inv t regs : treach junk n0 t regs -> TInv t regs.
  Proof.
    induction 1 as [|t regs ev t' HR IH He]; [apply tinv_start|].
    destruct (tinv_exec t regs ev (Ok t') IH He) as (t2 & E & HI). injection E as ->. auto.
  Qed.
  Lemma done_inv t regs : treach junk n0 t regs -> t_pc t = TDone ->
    Inv next junk n0 (t_s t) [] /\ forall q, m_fdlid (s_m (t_s t)) q = first_lids n0 regs q.
  Proof.
    intros HR Hd. destruct (treach_inv t regs HR) as (Hpc & HF & HM). rewrite Hd in HM. destruct HM as (HG & HO). split; auto.
    split; auto. exists 0. rewrite Hpc. exact HO.
  Qed.

  (** at rest *)
  Lemma t_at_rest t regs : TInv t regs -> t_rest junk n0 t -> t_pc t = TDone \/ (t_pc t = TReg /\ procs (t_s t) + 1 < n0).
  Proof.
    intros (Hpc & HF & HM) HR. set (s := t_s t) in *. pose proof HF as [F1 F2 F3 F4 F5 F6 F7 F8 F9].
    destruct (t_pc t) eqn:Epc; auto.
    - right. split; auto. pose proof (HR TGo Logic.I) as EG. unfold texec in EG. rewrite Epc in EG. destruct (Z.eqb_spec n0 1) as [E1|E1]; [discriminate|].
      pose proof HM as [G1 G2 G3 G4 G5 G6 G7 G8 G9 G10 G11 G12 G13]. destruct (t_st t) eqn:Est; try discriminate.
      assert (Hk : d_maxid (m_d (s_m s)) < n0 - 1).
      { destruct ((d_maxid (m_d (s_m s)) + 1 =? n0) && negb (n0 =? 1)) eqn:E; [discriminate|]. lia. }
      assert (HA : forall q n, s_n s q = Some n -> 1 <= m_fdlid (s_m s) q <= d_maxid (m_d (s_m s))).
      { intros q n Hn. destruct (Z_lt_le_dec (m_fdlid (s_m s) q) 0) as [Hl|Hl]; [|apply F2; auto]. exfalso.
        destruct (F5 q n Hn Hl) as (_ & _ & [(Eu & _)|(_ & C)]); [|rewrite (G9 eq_refl q) in C; discriminate].
        pose proof (HR (TUp q) Logic.I) as E. unfold texec in E. rewrite Epc in E. fold s in E. rewrite Eu in E. replace (n0 =? 1) with false in E by lia. discriminate. }
      set (L := filter (fun q => match s_n s q with Some _ => true | None => false end) (zcount max_fds)).
      assert (HL : forall q, In q L -> exists n, s_n s q = Some n).
      { intros q Hq. unfold L in Hq. apply filter_In in Hq. destruct Hq as (_ & Hq). destruct (s_n s q); [eauto|discriminate]. }
      assert (Hle : (length (map (m_fdlid (s_m s)) L) <= length (tos (d_maxid (m_d (s_m s)) + 1)))%nat).
      { apply NoDup_incl_length.
        - assert (ND : NoDup L) by (apply NoDup_filter, zcount_nodup). clearbody L. clear -ND HL HA HF.
          induction L as [|q L IH]; simpl; constructor.
          + inversion ND; subst. rewrite in_map_iff. intros (x & E & Hx). destruct (HL x (or_intror Hx)) as (n & Hn). pose proof (HA x n Hn).
            assert (x = q) by (eapply lid_inj; eauto; lia). subst. tauto.
          + inversion ND; subst. apply IH; auto. intros x Hx. apply HL. right; auto.
        - intros l Hl. apply in_map_iff in Hl. destruct Hl as (q & <- & Hq). destruct (HL q Hq) as (n & Hn). pose proof (HA q n Hn). apply tos_in. lia. }
      rewrite map_length in Hle. pose proof (tos_len (d_maxid (m_d (s_m s)) + 1) ltac:(lia)) as Ht. unfold procs. fold s. fold L. unfold zlen in *. lia.
    - exfalso. pose proof HM as [K1 K2 K3 K4 K5 K6 K7 K8 K9 K10 K11 K12].
      assert (HC : forall x, 1 <= x < n0 -> is_ready (d_peer (m_d (s_m s)) x) = true).
      { intros x Hx. destruct (K9 x Hx) as [E|E]; [|rewrite E; auto]. exfalso. destruct (F1 x ltac:(lia)) as (_ & A & n & B).
        pose proof (K12 _ n B ltac:(lia)) as HS. rewrite A, E in HS. destruct HS as (_ & _ & HS).
        pose proof (HR (TUp (m_pfd (s_m s) x)) Logic.I) as E1. pose proof (HR (TDown (m_pfd (s_m s) x)) Logic.I) as E2. unfold texec in E1, E2. rewrite Epc in E1, E2.
        fold s in E1, E2. replace (n0 =? 1) with false in E1 by lia. cbn [exec] in E2. rewrite B in E2.
        destruct HS as [(pre & Ed & _)|(_ & Eu)].
        - rewrite Ed in E2. destruct pre; discriminate.
        - rewrite Eu in E1. discriminate. }
      pose proof (HR TGo Logic.I) as EG. unfold texec in EG. rewrite Epc, K6 in EG. destruct K8 as (K8 & _).
      rewrite count_all in K8 by (try lia; intros x Hx; apply HC; lia). replace (m_ready (s_m s) + 1 =? n0) with true in EG by lia. discriminate.
  Qed.

  (** termination *)
  Definition t_rank (pc : tpc) : nat := match pc with TReg => 2 | TOk => 1 | TDone => 0 end.
  Definition t_load (t : tsys) (q : Z) : nat :=
    match t_pc t with
    | TReg => 2 * length (s_up (t_s t) q) + length (s_down (t_s t) q)
    | _ => 2 * length (s_down (t_s t) q) + length (s_up (t_s t) q)
    end.
  Definition t_total (t : tsys) : nat := fold_right (fun q a => t_load t q + a)%nat O (zcount max_fds).

  Lemma sum_less (f g : Z -> nat) L q : In q L -> (g q < f q)%nat -> (forall x, x <> q -> (g x <= f x)%nat) ->
    (fold_right (fun q a => g q + a) O L < fold_right (fun q a => f q + a) O L)%nat.
  Proof.
    clear. intros Hq Hlt Hle.
    assert (HL : forall L, (fold_right (fun q a => g q + a) O L <= fold_right (fun q a => f q + a) O L)%nat).
    { induction L0 as [|x L0 IH]; simpl; [lia|]. destruct (Z.eq_dec x q) as [->|Hne]; [lia|]. specialize (Hle x Hne). lia. }
    induction L as [|x L IH]; [easy|]. simpl. specialize (HL L). destruct (Z.eq_dec x q) as [->|Hne]; [lia|].
    destruct Hq as [->|Hq]; [tauto|]. specialize (IH Hq). specialize (Hle x Hne). lia.
  Qed.
  Lemma cmd_out c d d' o : node_cmd c d = Ok (d', o) -> (length o <= 1)%nat.
  Proof.
    clear. intros E. destruct c; cbn [node_cmd] in E; try discriminate.
    + unfold omap in E. apply obind_ok in E. destruct E as (x & _ & E). injection E as _ <-. simpl; lia.
    + unfold omap in E. apply obind_ok in E. destruct E as (x & _ & E). injection E as _ <-. simpl; lia.
    + unfold omap in E. apply obind_ok in E. destruct E as (x & _ & E). injection E as _ <-. simpl; lia.
    + injection E as E. unfold got_getready in E. destruct (d_st d); injection E as _ <-; simpl; lia.
    + injection E as _ <-. simpl; lia.
  Qed.

  Lemma t_less t regs ev t' : TInv t regs -> tinternal ev -> texec junk n0 t ev = Some (Ok t') ->
    (t_rank (t_pc t') < t_rank (t_pc t))%nat \/ (t_pc t' = t_pc t /\ (t_total t' < t_total t)%nat).
  Proof.
    intros HI Hi He. destruct ev; [easy|right|right|left].
    - pose proof HI as (Hpc & HF & HM). unfold texec in He. set (s := t_s t) in *.
      assert (He' : t_pc t <> TDone /\ t_lift t (exec (fun p => p) junk s (EvDown q)) = Some (Ok t')) by (destruct (t_pc t); split; auto; discriminate).
      destruct He' as (Hnd & He'). cbn [exec] in He'. destruct (s_n s q) as [n|] eqn:En; [|discriminate]. destruct (s_down s q) as [|c rest] eqn:Ed; [discriminate|].
      injection He' as He'. apply obind_ok in He'. destruct He' as (s' & E & He'). injection He' as <-. apply obind_ok in E. destruct E as ([d1 o] & E1 & E). injection E as <-.
      split; auto. unfold t_total. pose proof (f_some _ _ _ _ HF q n En). apply (sum_less _ _ _ q).
      + apply zcount_in. lia.
      + unfold t_load, with_n, push1. cbn [t_pc t_s s_down s_up fst snd]. fold s. rewrite !setz_eq, Ed, app_length. cbn [length]. pose proof (cmd_out _ _ _ _ E1).
        destruct (t_pc t); [|lia|lia]. assert (Hl : 0 <= m_fdlid (s_m s) q).
        { destruct (Z_lt_le_dec (m_fdlid (s_m s) q) 0) as [Hl|Hl]; auto. exfalso. destruct (f_unreg _ _ _ _ HF q n En Hl) as (_ & C & _). congruence. }
        destruct (f_lid _ _ _ _ HF q Hl) as (HL & _).
        destruct (g_sess _ _ _ _ _ _ HM q n En Hl) as (_ & _ & [(C & Enp)|(C & _)]); [|congruence]. rewrite Ed in C. injection C as -> ->.
        rewrite Enp, got_first in E1 by (pose proof (g_max _ _ _ _ _ _ HM); lia). injection E1 as _ <-. simpl. lia.
      + intros x Hx. unfold t_load, with_n, push1. cbn [t_pc t_s s_down s_up fst snd]. fold s. rewrite !setz_ne by auto. lia.
    - pose proof HI as (Hpc & HF & HM). unfold texec in He. set (s := t_s t) in *.
      assert (He' : t_pc t <> TDone /\ exists c rest, s_up s q = c :: rest /\
         (do r <- t_cmd n0 (t_st t) (s_m s) q c;
          let '(m', st', out) := r in
          Ok (mkT (with_m (mkSys (s_m s) MApp (s_n s) (s_down s) (setz (s_up s) q rest)) m' MApp out) st' (t_pc t))) = Ok t').
      { destruct (t_pc t); [..|discriminate]; (split; [discriminate|]); destruct (Z.eqb_spec n0 1); try discriminate;
          destruct (s_up s q) as [|c rest]; try discriminate; injection He as He; eauto. }
      clear He. destruct He' as (Hnd & c & rest & Eu & He). apply obind_ok in He. destruct He as ([[m' st'] out] & E & He). injection He as <-. split; auto.
      assert (HO : match t_pc t with TReg => out = [] \/ exists x, out = [(q, x)] | _ => out = [] end).
      { destruct c; cbn [t_cmd] in E; try discriminate.
        - destruct (0 <=? m_fdlid (s_m s) q); [injection E as _ _ <-; destruct (t_pc t); auto|].
          destruct (t_st t) eqn:Est.
          + apply obind_ok in E. destruct E as ([m1 o1] & Ea & E). injection E as _ _ <-. unfold accept_fd, cassert in Ea.
            destruct (_ <? _); [|discriminate]. destruct (negb _); [|discriminate]. injection Ea as _ <-. cbn [snd].
            destruct (t_pc t); [right; eauto| |tauto]. pose proof (k_st _ _ _ _ _ _ HM) as C. destruct (_ =? _); discriminate.
          + destruct (m_fdst (s_m s) q); try discriminate; injection E as _ _ <-; destruct (t_pc t); auto.
          + destruct (m_fdst (s_m s) q); try discriminate; injection E as _ _ <-; destruct (t_pc t); auto.
        - destruct (m_fdlid (s_m s) q <? 0); [injection E as _ _ <-; destruct (t_pc t); auto|].
          destruct (d_peer _ _); injection E as _ _ <-; destruct (t_pc t); auto. }
      unfold t_total. apply (sum_less _ _ _ q).
      + apply zcount_in. destruct (s_n s q) as [n|] eqn:En; [|destruct (f_none _ _ _ _ HF q En) as (_ & C & _); congruence]. pose proof (f_some _ _ _ _ HF q n En). lia.
      + unfold t_load, with_m, push. cbn [t_pc t_s s_down s_up]. fold s. rewrite setz_eq, Eu. cbn [length]. destruct (t_pc t).
        * destruct HO as [->|(x & ->)]; unfold sent_to; cbn [filter fst]; rewrite ?Z.eqb_refl; cbn [map]; rewrite app_length; cbn [length]; lia.
        * subst out. rewrite sent_nil, app_nil_r. lia.
        * tauto.
      + intros x Hx. unfold t_load, with_m, push. cbn [t_pc t_s s_down s_up]. fold s. rewrite setz_ne by auto. replace (sent_to x out) with (@nil msg); [rewrite app_nil_r; lia|].
        destruct (t_pc t); [|subst out; auto|tauto]. destruct HO as [->|(y & ->)]; auto. unfold sent_to. cbn [filter fst]. destruct (Z.eqb_spec q x); [lia|auto].
    - destruct (tinv_go t regs _ HI He) as (t2 & E & _ & Hp). injection E as <-. rewrite Hp. unfold texec in He.
      destruct (t_pc t); [destruct (n0 =? 1); simpl; lia|simpl; lia|discriminate].
  Qed.

  Lemma t_ends t regs : TInv t regs -> Acc (tstep junk n0) t.
  Proof.
    remember (t_rank (t_pc t)) as r eqn:Er. revert t regs Er. induction r as [r IHr] using lt_wf_ind. intros t regs Er.
    remember (t_total t) as k eqn:Ek. revert t regs Er Ek. induction k as [k IHk] using lt_wf_ind. intros t regs Er Ek HI.
    constructor. intros t' (ev & Hi & He). destruct (tinv_exec t regs ev (Ok t') HI He) as (t2 & E2 & HI'). injection E2 as <-.
    destruct (t_less t regs ev t' HI Hi He) as [Hlt|(Eq & Hlt)].
    - eapply IHr; [|reflexivity|exact HI']. lia.
    - eapply IHk; [|rewrite Eq; exact Er|reflexivity|exact HI']. lia.
  Qed.
End Startup.
