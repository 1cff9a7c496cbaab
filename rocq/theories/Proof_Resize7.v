(* The two steps of the master which handle requests preserve the invariant *)
From Coq Require Import ZArith List Bool Lia ZifyBool ZifyNat.
From Verif Require Import Base Model_Space Model_RangeList Model_Partitioner Model_Resize Spec_Resize Proof_Resize1 Proof_Resize2 Proof_Resize3 Proof_Resize4 Proof_Resize5 Proof_Resize6.
Import ListNotations.
Open Scope Z_scope.

(** commands sent to one process *)
Lemma sent_app q a b : sent_to q (a ++ b) = sent_to q a ++ sent_to q b.
Proof. unfold sent_to. rewrite filter_app, map_app. auto. Qed.
Lemma sent_same q (l : list msg) : sent_to q (map (fun c => (q, c)) l) = l.
Proof. unfold sent_to. induction l; simpl; auto. rewrite Z.eqb_refl. simpl. f_equal. auto. Qed.
Lemma sent_other q x (l : list msg) : x <> q -> sent_to q (map (fun c => (x, c)) l) = [].
Proof. intros H. unfold sent_to. induction l; simpl; auto. destruct (Z.eqb_spec x q); [lia|auto]. Qed.
Lemma sent_flat_none q (pfd : Z -> Z) msgs tos : (forall t, In t tos -> pfd t <> q) ->
  sent_to q (flat_map (fun t => map (fun c => (pfd t, c)) (msgs t)) tos) = [].
Proof.
  induction tos as [|t tos IH]; intros H; [reflexivity|]. simpl. rewrite sent_app, sent_other, IH; auto.
  - intros; apply H; right; auto.
  - apply H; left; auto.
Qed.
Lemma sent_flat_one q (pfd : Z -> Z) msgs tos t : NoDup tos -> In t tos -> pfd t = q -> (forall u, In u tos -> pfd u = q -> u = t) ->
  sent_to q (flat_map (fun t => map (fun c => (pfd t, c)) (msgs t)) tos) = msgs t.
Proof.
  intros ND Ht E HI. destruct (in_split _ _ Ht) as (a & b & ->). apply NoDup_remove_2 in ND. rewrite in_app_iff in ND.
  rewrite flat_map_app. simpl. rewrite !sent_app. rewrite !sent_flat_none.
  - rewrite E, sent_same, app_nil_r. auto.
  - intros u Hu Eu. assert (u = t) by (apply HI; auto; rewrite in_app_iff; right; right; auto). subst. tauto.
  - intros u Hu Eu. assert (u = t) by (apply HI; auto; rewrite in_app_iff; left; auto). subst. tauto.
Qed.
Lemma four_lists (x g : msg) a b c : [] ++ [x] ++ a ++ b ++ c ++ [g] = (x :: a ++ b ++ c) ++ [g].
Proof. simpl. rewrite <- !app_assoc. auto. Qed.
Lemma flat_single {A B} (f : A -> B) l : flat_map (fun x => [f x]) l = map f l.
Proof. induction l; simpl; congruence. Qed.

Lemma give_snoc k l q f : give k (l ++ [q]) f = setz (give k l f) q (k + zlen l).
Proof.
  revert k f. induction l as [|x l IH]; intros k f; simpl.
  - rewrite zlen_nil, Z.add_0_r. auto.
  - rewrite IH, zlen_cons. f_equal. lia.
Qed.

(** states after getready *)
Definition asked (s : pstate) : pstate :=
  match s with PsRegAccepted => PsRegFinishing | PsInResize => PsInResize2 | PsInResizeRemove => PsInResizeRemove2 | s => s end.
Definition askable (s : pstate) : bool :=
  match s with PsDead | PsRegAccepted | PsInResize | PsInResizeRemove => true | _ => false end.
Lemma getready_fold L d : NoDup L -> (forall x, In x L -> askable (d_peer d x) = true) ->
  exists d', ofold getready_step L d = Ok d' /\ d_lid d' = d_lid d /\ d_st d' = d_st d /\ d_maxid d' = d_maxid d /\
    d_loc d' = d_loc d /\ d_inst d' = d_inst d /\
    forall x, d_peer d' x = if zin x L then asked (d_peer d x) else d_peer d x.
Proof.
  revert d. induction L as [|y L IH]; intros d ND H.
  - exists d. simpl. auto 8.
  - inversion ND; subst. cbn [ofold].
    assert (E : exists d1, getready_step d y = Ok d1 /\ d_lid d1 = d_lid d /\ d_st d1 = d_st d /\ d_maxid d1 = d_maxid d /\
       d_loc d1 = d_loc d /\ d_inst d1 = d_inst d /\ d_peer d1 y = asked (d_peer d y) /\ (forall x, x <> y -> d_peer d1 x = d_peer d x)).
    { pose proof (H y (or_introl eq_refl)) as Hy. unfold getready_step.
      destruct (d_peer d y) eqn:E; try discriminate; eexists; (split; [reflexivity|]); simpl; rewrite ?setz_eq, ?E;
        (split; [auto|split; [auto|split; [auto|split; [auto|split; [auto|split; [auto|]]]]]]);
        intros x Hx; rewrite ?setz_ne by auto; auto. }
    destruct E as (d1 & -> & A1 & A2 & A3 & A4 & A5 & A6 & A7). cbn [obind].
    destruct (IH d1) as (d' & E & B1 & B2 & B3 & B4 & B5 & B6); auto.
    { intros x Hx. rewrite A7 by (intros ->; tauto). apply H. right; auto. }
    exists d'. split; auto. rewrite B1, B2, B3, B4, B5. split; auto. split; auto. split; auto. split; auto. split; auto.
    intros x. rewrite B6. simpl. destruct (Z.eqb_spec x y) as [->|Hne]; simpl.
    + replace (zin y L) with false by (symmetry; apply zin_not; auto). auto.
    + rewrite A7 by auto. auto.
Qed.

Section Rounds.
  Variables (next junk : Z -> Z) (n0 : Z).
  Hypothesis Hn0 : 0 <= n0.
  Hypothesis Hnext : forall p, next p <> -1.
  Notation WL := (WL n0). Notation NL := (NL n0).

  (** requests, one by one *)
  Record Jinv (m0 : master) (K : Z) (pre : list req) (m : master) (out : list (Z * msg)) : Prop := {
    j_lid : d_lid (m_d m) = d_lid (m_d m0);
    j_st : d_st (m_d m) = PsInResize1;
    j_inst : d_inst (m_d m) = d_inst (m_d m0);
    j_max : d_maxid (m_d m) = K + zlen (joins pre) - 1;
    j_loc : forall x, K + zlen (joins pre) <= x -> d_loc (m_d m) x = false;
    j_peer : forall x, d_peer (m_d m) x = if zin x (removals pre) then PsInResizeRemove
        else if (K <=? x) && (x <? K + zlen (joins pre)) then PsRegAccepted else d_peer (m_d m0) x;
    j_same : m_ready m = m_ready m0 /\ m_dead m = m_dead m0 /\ m_fdst m = m_fdst m0 /\ m_reqs m = m_reqs m0;
    j_new : forall l, K <= l < K + zlen (joins pre) -> In (m_pfd m l) (joins pre) /\ m_fdlid m (m_pfd m l) = l;
    j_lid2 : forall q, In q (joins pre) -> K <= m_fdlid m q < K + zlen (joins pre) /\ m_pfd m (m_fdlid m q) = q;
    j_oldq : forall q, ~ In q (joins pre) -> m_fdlid m q = m_fdlid m0 q;
    j_oldl : forall l, l < K -> m_pfd m l = m_pfd m0 l;
    j_give : forall q, m_fdlid m q = give K (joins pre) (m_fdlid m0) q;
    j_out : forall q, sent_to q out = if zin q (joins pre) then [MId (m_fdlid m q)] else [] }.

  Lemma zin_app x a b : zin x (a ++ b) = zin x a || zin x b.
  Proof. clear next junk n0 Hn0 Hnext. unfold zin. apply existsb_app. Qed.

  Lemma req_fold m0 K rs :
    d_st (m_d m0) = PsInResize1 -> d_maxid (m_d m0) = K - 1 -> 0 <= K -> (forall x, K <= x -> d_loc (m_d m0) x = false) ->
    NoDup (joins rs) -> (forall q, In q (joins rs) -> m_fdst m0 q = PsRegReceived2 /\ m_fdlid m0 q < 0) ->
    NoDup (removals rs) -> (forall x, In x (removals rs) -> 0 <= x < K /\ d_peer (m_d m0) x = PsInResize) ->
    K + zlen (joins rs) <= max_peers ->
    exists m out, ofold req_step rs (m0, []) = Ok (m, out) /\ Jinv m0 K rs m out.
  Proof. clear next junk n0 Hn0 Hnext.
    intros H1 H2 HK H3 N1 J1 N2 R1 Hle.
    destruct (ofold_total req_step (fun pre s => Jinv m0 K pre (fst s) (snd s)) rs (m0, [])) as ([m out] & E & HJ).
    - simpl. constructor; simpl; auto.
      + unfold zlen. simpl. lia.
      + intros x Hx. apply H3. unfold zlen in Hx. simpl in Hx. lia.
      + intros x. destruct ((K <=? x) && (x <? K + zlen [])) eqn:E; [unfold zlen in E; simpl in E; lia|auto].
      + intros l Hl. unfold zlen in Hl. simpl in Hl. lia.
      + tauto.
    - intros pre r post [m out] Ers HJ. simpl in HJ. destruct HJ as [A1 A2 A3 A4 A5 A6 (A7 & A8 & A9 & A10) A11 A12 A13 A14 Ag A15].
      destruct r as [fd|x]; cbn [req_step].
      + assert (Ej : joins rs = joins pre ++ fd :: joins post) by (rewrite Ers, joins_app; auto).
        assert (Hfd : ~ In fd (joins pre)).
        { rewrite Ej in N1. apply NoDup_remove_2 in N1. rewrite in_app_iff in N1. tauto. }
        destruct (J1 fd) as (F1 & F2); [rewrite Ej; apply in_elt|].
        rewrite A9, F1, (A13 fd Hfd). unfold cassert at 1. replace (m_fdlid m0 fd <? 0) with true by lia.
        unfold got_register. rewrite (A13 fd Hfd). replace (0 <=? m_fdlid m0 fd) with false by lia. rewrite A2. unfold accept_fd.
        rewrite A4. replace (K + zlen (joins pre) - 1 + 1) with (K + zlen (joins pre)) by lia.
        set (L := K + zlen (joins pre)) in *. pose proof (zlen_nonneg (joins pre)) as Hz.
        rewrite Ej, zlen_app, zlen_cons in Hle. pose proof (zlen_nonneg (joins post)) as Hz2.
        unfold cassert. replace (L <? max_peers) with true by lia. rewrite A5 by lia. cbn [negb obind fst snd].
        eexists. split; [reflexivity|]. simpl.
        assert (Ej' : joins (pre ++ [RJoin fd]) = joins pre ++ [fd]) by (rewrite joins_app; auto).
        assert (Er' : removals (pre ++ [RJoin fd]) = removals pre) by (rewrite removals_app; simpl; apply app_nil_r).
        assert (EL : K + zlen (joins (pre ++ [RJoin fd])) = L + 1) by (rewrite Ej', zlen_app, zlen_cons, zlen_nil; lia).
        constructor; rewrite ?EL, ?Er'; simpl; auto.
        * lia.
        * intros x Hx. rewrite setz_ne by lia. apply A5. lia.
        * intros x. destruct (Z.eq_dec x L) as [->|Hne].
          -- rewrite setz_eq. replace (zin L (removals pre)) with false; [destruct ((K <=? L) && (L <? L + 1)) eqn:E; [auto|lia]|].
             symmetry. apply zin_not. intros C. destruct (R1 L); [|lia]. rewrite Ers, removals_app, in_app_iff. auto.
          -- rewrite setz_ne by auto. rewrite A6. replace (x <? L + 1) with (x <? L) by lia. auto.
        * intros l Hl. rewrite Ej'. destruct (Z.eq_dec l L) as [->|Hne].
          -- rewrite !setz_eq. split; auto. apply in_elt.
          -- rewrite (setz_ne (m_pfd m)) by auto. destruct (A11 l ltac:(lia)) as (B1 & B2). split; [apply in_or_app; auto|].
             rewrite setz_ne; auto. intros C. rewrite C in B1. tauto.
        * intros q. rewrite Ej', in_app_iff. intros [Hq|[<-|[]]].
          -- destruct (A12 q Hq) as (B1 & B2). assert (q <> fd) by (intros ->; tauto). rewrite (setz_ne (m_fdlid m)) by auto.
             split; [lia|]. rewrite setz_ne by lia. auto.
          -- rewrite !setz_eq. split; [lia|auto].
        * intros q. rewrite Ej', in_app_iff. simpl. intros Hq. rewrite setz_ne by (intros ->; tauto). apply A13. tauto.
        * intros l Hl. rewrite setz_ne by lia. auto.
        * intros q. rewrite Ej', give_snoc. fold L. unfold setz. destruct (q =? fd); auto.
        * intros q. rewrite sent_app, A15, Ej', zin_app. simpl. rewrite orb_false_r.
          destruct (Z.eqb_spec q fd) as [->|Hne].
          -- replace (zin fd (joins pre)) with false by (symmetry; apply zin_not; auto). rewrite setz_eq. unfold sent_to. simpl. rewrite Z.eqb_refl. auto.
          -- rewrite orb_false_r, setz_ne by auto. unfold sent_to. simpl. destruct (Z.eqb_spec fd q); [lia|]. simpl. apply app_nil_r.
      + assert (Er : removals rs = removals pre ++ x :: removals post) by (rewrite Ers, removals_app; auto).
        assert (Hx : ~ In x (removals pre)).
        { rewrite Er in N2. apply NoDup_remove_2 in N2. rewrite in_app_iff in N2. tauto. }
        destruct (R1 x) as (R2 & R3); [rewrite Er; apply in_elt|].
        assert (Ep : d_peer (m_d m) x = PsInResize).
        { rewrite A6. replace (zin x (removals pre)) with false by (symmetry; apply zin_not; auto).
          destruct ((K <=? x) && (x <? K + zlen (joins pre))) eqn:E; [lia|auto]. }
        rewrite Ep. eexists. split; [reflexivity|]. simpl.
        assert (Ej' : joins (pre ++ [RRemove x]) = joins pre) by (rewrite joins_app; simpl; apply app_nil_r).
        assert (Er' : removals (pre ++ [RRemove x]) = removals pre ++ [x]) by (rewrite removals_app; auto).
        constructor; rewrite ?Ej', ?Er'; simpl; auto.
        intros y. rewrite zin_app. simpl. rewrite orb_false_r. destruct (Z.eqb_spec y x) as [->|Hne].
        * rewrite setz_eq, orb_true_r. auto.
        * rewrite setz_ne, orb_false_r by auto. auto.
    - exists m, out. auto.
  Qed.

  (* there are enough location IDs *)
  Lemma capacity m ns dn up K : Fds m ns dn up -> d_maxid (m_d m) = K - 1 -> 1 <= K -> K + zlen (joins (m_reqs m)) <= max_peers.
  Proof. clear next junk n0 Hn0 Hnext.
    intros HF Hm HK. pose proof HF as [F1 F2 F3 F4 F5 F6 F7 F8 F9].
    set (A := map (m_pfd m) (zfrom 1 (K - 1))).
    assert (HA : forall q, In q A -> 1 <= q < max_fds /\ 0 <= m_fdlid m q).
    { intros q Hq. apply in_map_iff in Hq. destruct Hq as (l & <- & Hl). apply zfrom_in in Hl.
      destruct (F1 l ltac:(lia)) as (B1 & B2 & _). split; auto. lia. }
    assert (HJ : forall q, In q (joins (m_reqs m)) -> 1 <= q < max_fds /\ m_fdlid m q < 0).
    { intros q Hq. apply F8 in Hq. destruct Hq as (B1 & B2). split; auto. destruct (ns q) eqn:E; [eapply F4; eauto|].
      apply F3 in E. rewrite B1 in E. destruct E as (_ & _ & _ & E). discriminate. }
    assert (ND : NoDup (A ++ joins (m_reqs m))).
    { apply nodup_app; auto.
      - unfold A. assert (NI : forall L, NoDup L -> (forall l, In l L -> 1 <= l <= d_maxid (m_d m)) -> NoDup (map (m_pfd m) L)).
        { induction L as [|x L IH]; intros NL HL; simpl; [constructor|]. inversion NL; subst. constructor.
          - intros C. apply in_map_iff in C. destruct C as (y & E & Hy). apply H1.
            destruct (F1 x (HL x (or_introl eq_refl))) as (_ & B & _). destruct (F1 y (HL y (or_intror Hy))) as (_ & C & _).
            rewrite E in C. congruence.
          - apply IH; auto. intros; apply HL; right; auto. }
        apply NI.
        + unfold zfrom. apply FinFun.Injective_map_NoDup; [intros a b; lia|apply zcount_nodup].
        + intros l Hl. apply zfrom_in in Hl. lia.
      - intros q Q1 Q2. apply HA in Q1. apply HJ in Q2. lia. }
    assert (HI : incl (A ++ joins (m_reqs m)) (zfrom 1 255)).
    { intros q Hq. apply zfrom_in. apply in_app_iff in Hq. destruct Hq as [Hq|Hq]; [apply HA in Hq|apply HJ in Hq]; unfold max_fds in *; lia. }
    pose proof (NoDup_incl_length ND HI) as HL. rewrite app_length in HL.
    assert (L1 : zlen A = K - 1) by (unfold A, zlen; rewrite map_length; fold (zlen (zfrom 1 (K - 1))); rewrite zfrom_len; lia).
    assert (L2 : zlen (zfrom 1 255) = 255) by (rewrite zfrom_len; lia).
    unfold zlen in *. unfold max_peers. lia.
  Qed.

  Lemma nlog_app cur rs : exists r, nlog cur rs = cur ++ r.
  Proof. clear next junk n0 Hn0 Hnext. unfold nlog. destruct rs; [exists []; rewrite app_nil_r; auto|eexists; reflexivity]. Qed.
  Lemma sessR_grow cur rs l n dn up : sessR junk n0 cur l n dn up -> sessR junk n0 (nlog cur rs) l n dn up.
  Proof.
    intros (E & HL & nf & A & B & [G1 G2 (i & G3 & G4 & G5)]). split; auto. split; auto. exists nf. split; auto. split; auto.
    constructor; auto. exists i. destruct (nlog_app cur rs) as (r & ->). split; auto. split; auto. apply world_ok_grow. auto.
  Qed.

  Lemma handled_log (log : list (list req)) rs : log ++ match rs with [] => [] | _ => [rs] end = nlog log rs.
  Proof. clear next junk n0 Hn0 Hnext. unfold nlog. destruct rs; [apply app_nil_r|auto]. Qed.

  Lemma inv_mid log P m ns dn up : Fds m ns dn up -> OpenM next junk n0 log P true m ns dn up -> waits_in m = false ->
    requests_fine (WL log) (m_reqs m) ->
    exists m' out, master_mid m = Ok (m', zlen (joins (m_reqs m)), zlen (removals (m_reqs m)), out) /\
      (forall q, m_fdlid m' q = give (NL log) (joins (m_reqs m)) (m_fdlid m) q) /\
      Fds m' ns (push dn out) up /\ RoundM next junk n0 log (m_reqs m) P (zlen (joins (m_reqs m))) (zlen (removals (m_reqs m))) m' ns (push dn out) up.
  Proof.
    intros HF HO Hw Hf. pose proof HF as [F1 F2 F3 F4 F5 F6 F7 F8 F9]. pose proof HO as [O1 O2 O3 O4 O5 O6 O7 O8 O9 O10 O11 O12].
    destruct O6 as (i & B1 & B2 & B3 & B4 & B5 & B6). specialize (B5 eq_refl). specialize (B6 B5). specialize (O7 eq_refl).
    pose proof Hf as (Hf1 & Hf2 & Hf3).
    set (rs := m_reqs m) in *. set (K := NL log) in *. pose proof (NL_nonneg n0 Hn0 log) as HK. fold K in HK.
    assert (HWb : forall x, In x (WL log) -> 0 <= x < K) by (intros x Hx; apply (WL_bound n0 Hn0 log x Hx)).
    pose proof (HWb 0 O3) as HK1.
    assert (HIn : forall x, In x (WL log) -> d_peer (m_d m) x = PsInResize).
    { intros x Hx. destruct (Z.eq_dec x 0) as [->|Hne]; auto. destruct (O8 x Hx) as [E|E]; auto. exfalso.
      pose proof (HWb x Hx) as Bx. unfold waits_in in Hw. assert (C : existsb (fun l => (1 <=? l) && is_ready (d_peer (m_d m) l)) (zcount (d_maxid (m_d m) + 1)) = true).
      { apply existsb_exists. exists x. split; [apply zcount_in; lia|]. rewrite E. simpl. lia. }
      congruence. }
    pose proof (capacity m ns dn up K HF ltac:(lia) ltac:(lia)) as Hcap. fold rs in Hcap.
    unfold master_mid. unfold cassert.
    replace (check_in m) with true.
    2:{ symmetry. apply forallb_forall. intros x Hx. apply zcount_in in Hx. destruct (x <? 1) eqn:E; auto. simpl.
        destruct (in_dec Z.eq_dec x (WL log)) as [Hi|Hi]; [rewrite HIn; auto|rewrite B6; auto; lia]. }
    set (m0 := m_setd m (set_st (m_d m) PsInResize1)).
    destruct (req_fold m0 K rs) as (m1 & out & E1 & HJ); auto.
    { intros x Hx. apply F9. lia. }
    { intros q Hq. apply F8 in Hq. auto. }
    { intros x Hx. destruct (Hf2 x Hx) as (X1 & X2). split; [auto|]. apply HIn. auto. }
    fold rs. rewrite E1. cbn [obind].
    destruct HJ as [J1 J2 J3 J4 J5 J6 (J7 & J8 & J9 & J10) J11 J12 J13 J14 Jg J15].
    set (K' := K + zlen (joins rs)) in *. pose proof (zlen_nonneg (joins rs)) as Hz.
    assert (EK' : NL (nlog log rs) = K') by (rewrite NL_next; auto).
    set (d1 := set_st (m_d m1) PsInResize2).
    set (m2 := m_setreqs (m_setd m1 d1) []).
    assert (Emax : d_maxid d1 + 1 = K') by (simpl; lia).
    (* the table of states *)
    assert (T0 : d_peer d1 0 = PsInResize).
    { simpl. rewrite J6. replace (zin 0 (removals rs)) with false by (symmetry; apply zin_not; intros C; apply Hf2 in C; lia).
      destruct ((K <=? 0) && (0 <? K')) eqn:E; [lia|]. simpl. auto. }
    assert (T1 : forall x, In x (WL log) -> d_peer d1 x = if zin x (removals rs) then PsInResizeRemove else PsInResize).
    { intros x Hx. simpl. rewrite J6. destruct (zin x (removals rs)); auto. pose proof (HWb x Hx).
      destruct ((K <=? x) && (x <? K')) eqn:E; [lia|]. simpl. apply HIn; auto. }
    assert (T2 : forall x, K <= x < K' -> d_peer d1 x = PsRegAccepted).
    { intros x Hx. simpl. rewrite J6. replace (zin x (removals rs)) with false.
      - destruct ((K <=? x) && (x <? K')) eqn:E; [auto|lia].
      - symmetry. apply zin_not. intros C. apply Hf2 in C. destruct C as (C & _). apply HWb in C. lia. }
    assert (T3 : forall x, 0 <= x < K -> ~ In x (WL log) -> d_peer d1 x = PsDead).
    { intros x Hx Hn. simpl. rewrite J6. replace (zin x (removals rs)) with false.
      - destruct ((K <=? x) && (x <? K')) eqn:E; [lia|]. simpl. auto.
      - symmetry. apply zin_not. intros C. apply Hf2 in C. tauto. }
    assert (Tall : forall x, 0 <= x < K' -> (In x (WL log) /\ x < K) \/ K <= x < K' \/ (0 <= x < K /\ ~ In x (WL log))).
    { intros x Hx. destruct (in_dec Z.eq_dec x (WL log)) as [Hi|Hi]; [left; split; auto; apply HWb; auto|]. destruct (Z_lt_le_dec x K); [right; right; split; [lia|auto]|right; left; lia]. }
    destruct (getready_fold (filter (fun l => 1 <=? l) (zcount (d_maxid d1 + 1))) d1) as (d2 & E2 & G1 & G2 & G3 & G4 & G5 & G6).
    { apply NoDup_filter, zcount_nodup. }
    { intros x Hx. apply filter_In in Hx. destruct Hx as (Hx & _). rewrite Emax in Hx. apply zcount_in in Hx.
      destruct (Tall x Hx) as [(Hi & _)|[Hi|(Hi & Hn)]].
      - rewrite T1 by auto. destruct (zin x (removals rs)); auto.
      - rewrite T2 by auto. auto.
      - rewrite T3 by auto. auto. }
    rewrite E2. cbn [obind].
    assert (Gp : forall x, d_peer d2 x = if (1 <=? x) && (x <? K') then asked (d_peer d1 x) else d_peer d1 x).
    { intros x. rewrite G6. rewrite Emax. destruct (zin x (filter (fun l => 1 <=? l) (zcount K'))) eqn:E.
      - apply zin_In, filter_In in E. rewrite zcount_in in E. replace ((1 <=? x) && (x <? K')) with true by lia. auto.
      - apply zin_not in E. rewrite filter_In, zcount_in in E. destruct ((1 <=? x) && (x <? K')) eqn:E3; auto. exfalso. apply E. lia. }
    assert (Cacc : count_acc d1 = zlen (joins rs)).
    { unfold count_acc. rewrite Emax. unfold K'. rewrite zcount_plus by lia. rewrite filter_app.
      rewrite filter_false.
      - cbn [app]. rewrite filter_true.
        + fold (zlen (zfrom K (zlen (joins rs)))). rewrite zfrom_len. lia.
        + intros x Hx. apply zfrom_in in Hx. fold K' in Hx. rewrite T2 by auto. simpl. lia.
      - intros x Hx. apply zcount_in in Hx. destruct (in_dec Z.eq_dec x (WL log)) as [Hi|Hi].
        + rewrite T1 by auto. destruct (zin x (removals rs)); simpl; apply andb_false_r.
        + rewrite T3 by auto. apply andb_false_r. }
    assert (Crem : count_rem d1 = zlen (removals rs)).
    { unfold count_rem. rewrite Emax. apply zlen_perm, Permutation.NoDup_Permutation.
      - apply NoDup_filter, zcount_nodup.
      - auto.
      - intros x. rewrite filter_In, zcount_in. split.
        + intros (Hx & E). apply andb_true_iff in E. destruct E as (E & E3). destruct (Tall x Hx) as [(Hi & _)|[Hi|(Hi & Hn)]].
          * rewrite T1 in E3 by auto. destruct (zin x (removals rs)) eqn:Ez; [apply zin_In; auto|discriminate].
          * rewrite T2 in E3 by auto. discriminate.
          * rewrite T3 in E3 by auto. discriminate.
        + intros Hx. destruct (Hf2 x Hx) as (X1 & X2). pose proof (HWb x X1). split; [lia|]. rewrite T1 by auto.
          replace (zin x (removals rs)) with true by (symmetry; apply zin_In; auto). simpl. lia. }
    rewrite Cacc, Crem.
    set (tos := filter (fun l => (1 <=? l) && negb (is_dead (d_peer d1 l))) (zcount (d_maxid d1 + 1))).
    set (out2 := flat_map (fun to => map (fun c => (m_pfd m2 to, c)) (round_msgs d1 to)) tos).
    exists (m_setd m2 d2), (out ++ out2). split; [reflexivity|]. split; [exact Jg|].
    assert (Htos : forall t, In t tos <-> 1 <= t < K' /\ (In t (WL log) \/ K <= t)).
    { intros t. unfold tos. rewrite filter_In, Emax, zcount_in. split.
      - intros (Ht & E). apply andb_true_iff in E. destruct E as (E & E3). split; [lia|]. destruct (Tall t Ht) as [(Hi & _)|[Hi|(Hi & Hn)]]; auto.
        + right; lia.
        + rewrite T3 in E3 by auto. discriminate.
      - intros (Ht & Hi). split; [lia|]. destruct Hi as [Hi|Hi].
        + rewrite T1 by auto. destruct (zin t (removals rs)); simpl; lia.
        + rewrite T2 by lia. simpl. lia. }
    assert (NDt : NoDup tos) by (apply NoDup_filter, zcount_nodup).
    (* file descriptors after the joins *)
    assert (HJq : forall q, In q (joins rs) -> m_fdst m q = PsRegReceived2 /\ m_fdlid m q < 0) by (intros q Hq; apply F8; auto).
    assert (HJp : forall q, In q (joins rs) -> exists n, ns q = Some n).
    { intros q Hq. destruct (HJq q Hq) as (X1 & X2). destruct (ns q) eqn:E; eauto. apply F3 in E. rewrite X1 in E. destruct E as (_ & _ & _ & E). discriminate. }
    assert (Hold : forall l, 1 <= l < K -> m_pfd m1 l = m_pfd m l /\ m_fdlid m1 (m_pfd m l) = l).
    { intros l Hl. split; [rewrite J14 by lia; auto|]. destruct (F1 l ltac:(lia)) as (X1 & X2 & _). rewrite J13; auto.
      intros C. apply HJq in C. lia. }
    assert (Hpl : forall l, 1 <= l < K' -> m_fdlid m1 (m_pfd m1 l) = l /\ exists n, ns (m_pfd m1 l) = Some n).
    { intros l Hl. destruct (Z_lt_le_dec l K) as [Hlt|Hge].
      - destruct (Hold l ltac:(lia)) as (X1 & X2). rewrite X1. split; auto. destruct (F1 l ltac:(lia)) as (_ & _ & X3). auto.
      - destruct (J11 l ltac:(lia)) as (X1 & X2). split; auto. }
    assert (Hlp : forall q, 0 <= m_fdlid m1 q -> 1 <= m_fdlid m1 q < K' /\ m_pfd m1 (m_fdlid m1 q) = q).
    { intros q Hq. destruct (in_dec Z.eq_dec q (joins rs)) as [Hi|Hi].
      - destruct (J12 q Hi) as (X1 & X2). split; auto. lia.
      - rewrite (J13 q Hi) in *. destruct (F2 q Hq) as (X1 & X2). cbn [m0 m_setd m_fdlid] in *. split; [lia|].
        rewrite J14 by lia. auto. }
    (* what is sent *)
    assert (S1 : forall q, m_fdlid m1 q < 0 \/ ns q = None \/ ~ In (m_fdlid m1 q) tos -> sent_to q out2 = []).
    { intros q Hq. unfold out2. apply sent_flat_none. intros t Ht E. apply Htos in Ht as Ht'. destruct Ht' as (Ht1 & _).
      change (m_pfd m2 t) with (m_pfd m1 t) in E. destruct (Hpl t Ht1) as (X1 & n & X2). rewrite E in X1, X2.
      destruct Hq as [Hq|[Hq|Hq]]; [lia|congruence|]. apply Hq. rewrite X1. auto. }
    assert (S2 : forall q, 0 <= m_fdlid m1 q -> In (m_fdlid m1 q) tos -> sent_to q out2 = round_msgs d1 (m_fdlid m1 q)).
    { intros q Hq Ht. unfold out2. apply sent_flat_one; auto.
      - apply (Hlp q Hq).
      - intros u Hu E. apply Htos in Hu. destruct Hu as (Hu & _). change (m_pfd m2 u) with (m_pfd m1 u) in E.
        destruct (Hpl u Hu) as (X1 & _). rewrite <- X1, E. auto. }
    assert (S3 : forall q, ~ In q (joins rs) -> sent_to q out = []).
    { intros q Hq. rewrite J15. apply zin_not in Hq. rewrite Hq. auto. }
    assert (Elid : forall q, m_fdlid (m_setd m2 d2) q = m_fdlid m1 q) by auto.
    assert (Hneg : forall q, m_fdlid m1 q < 0 -> ~ In q (joins rs) /\ m_fdlid m q < 0).
    { intros q Hq. assert (~ In q (joins rs)) by (intros C; destruct (J12 q C); lia). split; auto. rewrite (J13 q) in Hq by auto. auto. }
    split.
    - constructor; cbn [m_setd m_setreqs m_d m_fdst m_fdlid m_pfd m_reqs m2]; rewrite ?G3, ?G4.
      + intros l Hl. cbn [d1 set_st d_maxid] in Hl. destruct (Hpl l ltac:(lia)) as (X1 & n & X2). split; [eapply F4; eauto|]. eauto.
      + intros q Hq. destruct (Hlp q Hq) as (X1 & X2). cbn [d1 set_st d_maxid]. split; [lia|auto].
      + intros q Hq. destruct (F3 q Hq) as (X1 & X2 & X3 & X4). unfold push. rewrite sent_app, S1, S3, X1 by (auto; intros C; destruct (HJp q C); congruence).
        split; auto. split; auto. rewrite J13 by (intros C; destruct (HJp q C); congruence). rewrite J9. auto.
      + auto.
      + intros q n Hn Hl. destruct (Hneg q Hl) as (X1 & X2). unfold push. rewrite sent_app, S1, S3 by auto. rewrite J9.
        destruct (F5 q n Hn X2) as (Y1 & Y2 & Y3). rewrite Y2. auto.
      + intros q. rewrite J9. cbn [m0 m_setd m_fdst]. intros Hq. rewrite J13; [apply F6; auto|]. intros C. destruct (HJq q C). congruence.
      + constructor.
      + intros q. rewrite J9. cbn [m0 m_setd m_fdst]. split; [simpl; tauto|]. intros (X1 & X2). destruct (Hneg q X2) as (Y1 & Y2). exfalso. apply Y1. apply F8. auto.
      + intros x Hx. cbn [d1 set_st d_maxid d_loc] in *. apply J5. lia.
    - constructor; cbn [m_setd m_setreqs m_d m_fdst m_fdlid m_pfd m_reqs m2 m_ready m_dead]; fold K; rewrite ?EK', ?G1, ?G2, ?G3, ?G5; auto.
      + cbn [d1 set_st d_lid]. rewrite J1. auto.
      + exists i. cbn [d1 set_st d_inst]. rewrite J3. cbn [m0 m_setd m_d set_st d_inst]. auto.
      + rewrite Gp. simpl. auto.
      + intros x Hx Hx0. pose proof (HWb x Hx). rewrite Gp, T1 by auto. replace ((1 <=? x) && (x <? K')) with true by lia.
        destruct (zin x (removals rs)); auto.
      + intros x Hx. rewrite Gp, T2 by auto. replace ((1 <=? x) && (x <? K')) with true by lia. auto.
      + intros x Hx Hn. rewrite Gp, T3 by auto. destruct ((1 <=? x) && (x <? K')); auto.
      + rewrite J7. cbn [m0 m_setd m_ready]. rewrite O10, !count_zlen, G3, Emax, O4. replace (K - 1 + 1) with K by lia.
        unfold K'. rewrite zcount_plus by lia. rewrite filter_app, zlen_app.
        rewrite (filter_false _ (zfrom K _)).
        * rewrite zlen_nil, Z.add_0_r. f_equal. apply filter_ext_in. intros x Hx. apply zcount_in in Hx.
          destruct (1 <=? x) eqn:Ex; auto. simpl. rewrite Gp. replace ((1 <=? x) && (x <? K')) with true by lia.
          destruct (in_dec Z.eq_dec x (WL log)) as [Hi|Hi].
          -- rewrite HIn, T1 by auto. destruct (zin x (removals rs)); auto.
          -- rewrite B6, T3 by auto. auto.
        * intros x Hx. apply zfrom_in in Hx. fold K' in Hx. rewrite Gp, T2 by auto. replace ((1 <=? x) && (x <? K')) with true by lia. apply andb_false_r.
      + rewrite J8. cbn [m0 m_setd m_dead]. rewrite O11, !count_zlen, G3, Emax, O4. replace (K - 1 + 1) with K by lia.
        unfold K'. rewrite zcount_plus by lia. rewrite filter_app, zlen_app.
        rewrite (filter_false _ (zfrom K _)).
        * rewrite zlen_nil, Z.add_0_r. f_equal. apply filter_ext_in. intros x Hx. apply zcount_in in Hx.
          destruct (1 <=? x) eqn:Ex; auto. simpl. rewrite Gp. replace ((1 <=? x) && (x <? K')) with true by lia.
          destruct (in_dec Z.eq_dec x (WL log)) as [Hi|Hi].
          -- rewrite HIn, T1 by auto. destruct (zin x (removals rs)); auto.
          -- rewrite B6, T3 by auto. auto.
        * intros x Hx. apply zfrom_in in Hx. fold K' in Hx. rewrite Gp, T2 by auto. replace ((1 <=? x) && (x <? K')) with true by lia. apply andb_false_r.
      + intros q n Hn Hl. cbv zeta. destruct (Hlp q Hl) as (L1 & L2). set (l := m_fdlid m1 q) in *.
        assert (Hids : forall x, In x (filter (fun y => is_acc (d_peer d1 y) && negb (y =? l)) (zcount (d_maxid d1 + 1))) <-> K <= x < K' /\ x <> l).
        { intros x. rewrite filter_In, Emax, zcount_in. split.
          - intros (Hx & E). apply andb_true_iff in E. destruct E as (E & E3). split; [|lia]. destruct (Tall x Hx) as [(Hi & _)|[Hi|(Hi & Hnx)]]; auto.
            + rewrite T1 in E by auto. destruct (zin x (removals rs)); discriminate.
            + rewrite T3 in E by auto. discriminate.
          - intros (Hx & Hne). split; [lia|]. rewrite T2 by auto. simpl. lia. }
        assert (Hbs : forall x, In x (filter (fun y => is_rem (d_peer d1 y)) (zcount (d_maxid d1 + 1))) <-> In x (removals rs)).
        { intros x. rewrite filter_In, Emax, zcount_in. split.
          - intros (Hx & E). destruct (Tall x Hx) as [(Hi & _)|[Hi|(Hi & Hnx)]].
            + rewrite T1 in E by auto. destruct (zin x (removals rs)) eqn:Ez; [apply zin_In; auto|discriminate].
            + rewrite T2 in E by auto. discriminate.
            + rewrite T3 in E by auto. discriminate.
          - intros Hx. destruct (Hf2 x Hx) as (X1 & X2). pose proof (HWb x X1). split; [lia|]. rewrite T1 by auto.
            replace (zin x (removals rs)) with true by (symmetry; apply zin_In; auto). auto. }
        assert (Hmap : forall L B, Forall info (map MId L ++ map MNewId B ++ map MBackedout (filter (fun y => is_rem (d_peer d1 y)) (zcount (d_maxid d1 + 1))))).
        { intros L B. rewrite !Forall_app, !Forall_map. repeat split; apply Forall_forall; simpl; auto. }
        destruct (in_dec Z.eq_dec q (joins rs)) as [Hi|Hi].
        * (* joining *)
          destruct (J12 q Hi) as (X1 & X2). fold l in X1, X2. destruct (HJq q Hi) as (Y1 & Y2).
          destruct (F5 q n Hn Y2) as (-> & Ed & Eu). destruct Eu as [(_ & Eu)|(Eu & _)]; [rewrite Y1 in Eu; discriminate|].
          replace (zin l (WL log)) with false by (symmetry; apply zin_not; intros C; apply HWb in C; lia).
          replace (K <=? l) with true by lia. rewrite Gp, T2 by auto. replace ((1 <=? l) && (l <? K')) with true by lia. cbn [asked is_conf].
          assert (Htl : In l tos) by (apply Htos; split; [lia|right; lia]).
          unfold push. rewrite sent_app, J15, (S2 q Hl Htl), Ed. fold l. replace (zin q (joins rs)) with true by (symmetry; apply zin_In; auto).
          assert (ER : round_msgs d1 l = map MId (filter (fun y => negb (is_dead (d_peer d1 y)) && negb (is_acc (d_peer d1 y))) (zcount (d_maxid d1 + 1)))
             ++ map MNewId (filter (fun y => is_acc (d_peer d1 y) && negb (y =? l)) (zcount (d_maxid d1 + 1)))
             ++ map MBackedout (filter (fun y => is_rem (d_peer d1 y)) (zcount (d_maxid d1 + 1))) ++ [MGetready]).
          { unfold round_msgs. rewrite (T2 l) by auto. reflexivity. }
          rewrite ER.
          destruct (drain_new n0 Hn0 log rs l (filter (fun y => negb (is_dead (d_peer d1 y)) && negb (is_acc (d_peer d1 y))) (zcount (d_maxid d1 + 1)))
             (filter (fun y => is_acc (d_peer d1 y) && negb (y =? l)) (zcount (d_maxid d1 + 1)))
             (filter (fun y => is_rem (d_peer d1 y)) (zcount (d_maxid d1 + 1)))) as (d' & D & HR); auto; try (apply NoDup_filter, zcount_nodup).
          { intros x. rewrite filter_In, Emax, zcount_in. split.
            - intros (Hx & E). destruct (Tall x Hx) as [(Hix & _)|[Hix|(Hix & Hnx)]]; auto.
              + rewrite T2 in E by auto. discriminate.
              + rewrite T3 in E by auto. discriminate.
            - intros Hx. pose proof (HWb x Hx). split; [lia|]. rewrite T1 by auto. destruct (zin x (removals rs)); auto. }
          split; [reflexivity|]. split.
          -- exists d'. split; [|exact HR]. rewrite Eu. cbn [app np_d]. exact D.
          -- left. clear -Hmap Eu.
             exists (MId l :: map MId (filter (fun y => negb (is_dead (d_peer d1 y)) && negb (is_acc (d_peer d1 y))) (zcount (d_maxid d1 + 1)))
                ++ map MNewId (filter (fun y => is_acc (d_peer d1 y) && negb (y =? l)) (zcount (d_maxid d1 + 1)))
                ++ map MBackedout (filter (fun y => is_rem (d_peer d1 y)) (zcount (d_maxid d1 + 1)))).
             split; [|split; [|exact Eu]].
             ++ apply four_lists.
             ++ constructor; [simpl; auto|]. apply Hmap.
        * (* a process of the old world *)
          pose proof (J13 q Hi) as El. fold l in El. cbn [m0 m_setd m_fdlid] in El.
          assert (Hl0 : 0 <= m_fdlid m q) by lia. destruct (F2 q Hl0) as (HL & _). rewrite <- El in HL.
          pose proof (O12 q n Hn Hl0) as HS. cbv zeta in HS. rewrite <- El in HS.
          unfold push. rewrite sent_app, (S3 q Hi).
          destruct (zin l (WL log)) eqn:Ez.
          -- apply zin_In in Ez. rewrite (HIn l Ez) in HS. destruct HS as (Eu & Ed & Epc & HE). rewrite Eu, Ed.
             assert (Htl : In l tos) by (apply Htos; split; [lia|auto]). rewrite (S2 q Hl Htl). fold l. cbn [app].
             assert (Ecf : is_conf (d_peer d2 l) = false).
             { rewrite Gp, T1 by auto. replace ((1 <=? l) && (l <? K')) with true by lia. destruct (zin l (removals rs)); auto. }
             rewrite Ecf.
             assert (ER : round_msgs d1 l = map MNewId (filter (fun y => is_acc (d_peer d1 y) && negb (y =? l)) (zcount (d_maxid d1 + 1)))
               ++ map MBackedout (filter (fun y => is_rem (d_peer d1 y)) (zcount (d_maxid d1 + 1))) ++ [MGetready]).
             { unfold round_msgs. rewrite (T1 l) by auto. destruct (zin l (removals rs)); reflexivity. }
             rewrite ER.
             destruct (drain_old next n0 Hn0 log rs P l (np_d n)
               (filter (fun y => is_acc (d_peer d1 y) && negb (y =? l)) (zcount (d_maxid d1 + 1)))
               (filter (fun y => is_rem (d_peer d1 y)) (zcount (d_maxid d1 + 1)))) as (d' & D & HR); auto; try (apply NoDup_filter, zcount_nodup).
             { lia. }
             { intros x. rewrite Hids. split; [tauto|]. intros Hx. split; auto. pose proof (HWb l Ez). fold K in Hx. lia. }
             split; [auto|]. split; [exists d'; auto|]. left. eexists. split; [|split; [|reflexivity]].
             ++ rewrite app_assoc. reflexivity.
             ++ apply (Hmap []).
          -- replace (K <=? l) with false by lia. rewrite S1.
             ++ rewrite !app_nil_r. apply sessR_grow. auto.
             ++ right. right. intros C. apply Htos in C. apply zin_not in Ez. lia || (destruct C as (_ & [C|C]); [tauto|lia]).
  Qed.

  (** the end *)
  Lemma arrive_old cur rs P l n e : RoundOld next n0 cur rs P l (np_d n) -> np_pc n = NWait -> In l (WL cur) -> requests_fine (WL cur) rs ->
    if zin l (removals rs) then arrives junk (Gone n0 (nlog cur rs) l) n [MPhase (next P) e]
    else arrives junk (Settled n0 (nlog cur rs) (next P) l) n [MPhase (next P) e].
  Proof.
    intros HR Hpc Hl Hf. destruct (leave_old next junk n0 Hn0 cur rs P l (np_d n) e HR Hl Hf) as (d' & E & HQ).
    destruct n as [d pc]. simpl in Hpc. subst pc. cbn [np_d] in *.
    assert (A : forall Q : node -> Prop, Q d' -> arrives junk Q (mkNp d NWait) [MPhase (next P) e]).
    { intros Q HQ'. split.
      - right. exists (next P), e. split; auto. split; [discriminate|]. eapply old_nogo; eauto.
      - exists (mkNp d' NApp). split; [|auto]. rewrite fut_phase. cbn [np_d np_pc]. rewrite fut_go.
        + unfold go_node. cbn [np_pc np_d]. rewrite E. reflexivity.
        + unfold may_go. simpl. destruct (ro_inst _ _ _ _ _ _ _ HR) as (i & Ei & _ & Eph & _). rewrite Ei, Eph. apply Z.eqb_refl. }
    cbv zeta in HQ. destruct (zin l (removals rs)); auto.
  Qed.
  Lemma arrive_new cur rs l n p : p <> -1 -> RoundNew n0 cur rs l (np_d n) -> np_pc n = NReg -> NL cur <= l < NL cur + zlen (joins rs) -> In 0 (WL cur) ->
    requests_fine (WL cur) rs -> arrives junk (Settled n0 (nlog cur rs) p l) n [MPhase p (zlen (nlog cur rs))].
  Proof.
    intros Hp HR Hpc Hl H0 Hf. destruct (init_new junk n0 Hn0 cur rs l (np_d n) p HR Hl H0 Hf) as (d' & E & HQ).
    destruct n as [d pc]. simpl in Hpc. subst pc. cbn [np_d] in *. split.
    - right. eexists. eexists. split; [reflexivity|]. split; [discriminate|]. eapply new_nogo; eauto.
    - exists (mkNp d' NApp). split; [|auto]. rewrite fut_phase. cbn [np_d np_pc]. rewrite fut_go.
      + unfold go_node. cbn [np_pc np_d]. rewrite E. reflexivity.
      + unfold may_go. simpl. rewrite (rn_st _ _ _ _ _ HR). simpl. destruct (Z.eqb_spec p (-1)); [tauto|auto].
  Qed.

  Lemma inv_end cur rs P a r m ns dn up : Fds m ns dn up -> RoundM next junk n0 cur rs P a r m ns dn up -> waits_ok m = false ->
    exists m' out, master_end junk a r m = Ok (m', out) /\ Fds m' ns (push dn out) up /\
      OpenM next junk n0 (nlog cur rs) (next P) false m' ns (push dn out) up.
  Proof.
    intros HF HR Hw. pose proof HF as [F1 F2 F3 F4 F5 F6 F7 F8 F9].
    pose proof HR as [R1 R2 R3 R4 R5 R6 R7 R8 R9 R10 R11 R12 R13 R14 R15 R16 R17].
    destruct R9 as (i & I1 & I2 & I3 & I4 & I5). pose proof R6 as (Hf1 & Hf2 & Hf3).
    set (log := nlog cur rs) in *. set (K := NL cur) in *. set (K' := NL log) in *.
    assert (EK' : K' = K + zlen (joins rs)) by (apply NL_next). pose proof (zlen_nonneg (joins rs)) as Hz. pose proof (NL_nonneg n0 Hn0 cur) as HK. fold K in HK.
    assert (HWb : forall x, In x (WL cur) -> 0 <= x < K) by (intros x Hx; apply (WL_bound n0 Hn0 cur x Hx)).
    assert (HWL : forall x, In x (WL log) <-> (In x (WL cur) /\ ~ In x (removals rs)) \/ K <= x < K').
    { intros x. unfold log. rewrite WL_next. fold K. rewrite EK'. tauto. }
    assert (Tall : forall x, 0 <= x < K' -> (In x (WL cur) /\ x < K) \/ K <= x < K' \/ (0 <= x < K /\ ~ In x (WL cur))).
    { intros x Hx. destruct (in_dec Z.eq_dec x (WL cur)) as [Hi|Hi]; [left; split; auto; apply HWb; auto|]. destruct (Z_lt_le_dec x K); [right; right; split; [lia|auto]|right; left; lia]. }
    set (d := m_d m) in *.
    assert (HC : forall x, 1 <= x < K' -> match d_peer d x with PsDead | PsReady | PsInResize3 | PsInResizeRemove3 => True | _ => False end).
    { intros x Hx. unfold waits_ok in Hw. fold d in Hw.
      destruct (d_peer d x) eqn:E; auto; exfalso;
        (assert (C : existsb (fun l => (1 <=? l) && match d_peer d l with PsDead | PsReady | PsInResize3 | PsInResizeRemove3 => false | _ => true end) (zcount (d_maxid d + 1)) = true);
         [apply existsb_exists; exists x; split; [apply zcount_in; lia|rewrite E; lia]|congruence]). }
    assert (T1 : forall x, In x (WL cur) -> x <> 0 -> d_peer d x = if zin x (removals rs) then PsInResizeRemove3 else PsInResize3).
    { intros x Hx Hx0. pose proof (HWb x Hx). specialize (HC x ltac:(lia)). specialize (R11 x Hx Hx0).
      destruct (zin x (removals rs)); destruct R11 as [E|E]; rewrite E in *; auto; tauto. }
    assert (T2 : forall x, K <= x < K' -> d_peer d x = PsReady).
    { intros x Hx. assert (1 <= x) by (specialize (HWb 0 R3); lia). specialize (HC x ltac:(lia)). destruct (R12 x Hx) as [E|E]; rewrite E in *; auto. tauto. }
    assert (H0W : In 0 (WL log)) by (apply HWL; left; split; auto; intros C; apply Hf2 in C; lia).
    unfold master_end. fold d. rewrite I1. unfold cassert.
    replace (count_st (fun s => negb (is_dead s)) d =? m_ready m) with true.
    2:{ symmetry. apply Z.eqb_eq. rewrite R14. apply count_ext; auto. intros x Hx. specialize (HC x ltac:(lia)). fold d.
        destruct (d_peer d x); auto; tauto. }
    replace (count_st is_dead d =? m_dead m) with true by (symmetry; apply Z.eqb_eq; auto).
    set (change := (0 <? a) || (0 <? r)).
    assert (Hch : change = match rs with [] => false | _ => true end).
    { unfold change. rewrite R7, R8. destruct rs as [|[fd|x] rs']; [reflexivity| |].
      - cbn [joins removals flat_map app]. rewrite zlen_cons. match goal with |- context [zlen ?x + 1] => pose proof (zlen_nonneg x) end. lia.
      - cbn [joins removals flat_map app]. rewrite zlen_cons. match goal with |- context [zlen ?x + 1] => pose proof (zlen_nonneg x) end. lia. }
    set (e := if change then i_epoch i + 1 else i_epoch i).
    assert (He : e = zlen log).
    { unfold e, log, nlog. rewrite Hch, I2. destruct rs; auto. rewrite zlen_app, zlen_cons, zlen_nil. lia. }
    set (tos := filter (fun l => (1 <=? l) && negb (is_dead (d_peer d l))) (zcount (d_maxid d + 1))).
    set (out := map (fun l => (m_pfd m l, MPhase (i_phase i) e)) tos).
    assert (Emax : d_maxid d + 1 = K') by lia.
    assert (Htos : forall t, In t tos <-> 1 <= t < K' /\ (In t (WL cur) \/ K <= t)).
    { intros t. unfold tos. rewrite filter_In, Emax, zcount_in. split.
      - intros (Ht & E). apply andb_true_iff in E. destruct E as (E & E3). split; [lia|]. destruct (Tall t Ht) as [(Hi & _)|[Hi|(Hi & Hn)]]; auto.
        + right; lia.
        + rewrite R13 in E3 by auto. discriminate.
      - intros (Ht & Hi). split; [lia|]. destruct Hi as [Hi|Hi].
        + rewrite T1 by (auto; lia). destruct (zin t (removals rs)); simpl; lia.
        + rewrite T2 by lia. simpl. lia. }
    assert (NDt : NoDup tos) by (apply NoDup_filter, zcount_nodup).
    assert (Eout : out = flat_map (fun t => map (fun c => (m_pfd m t, c)) [MPhase (next P) (zlen log)]) tos).
    { unfold out. rewrite He, I3. symmetry. apply (flat_single (fun t => (m_pfd m t, MPhase (next P) (zlen log)))). }
    assert (S1 : forall q, m_fdlid m q < 0 \/ ns q = None \/ ~ In (m_fdlid m q) tos -> sent_to q out = []).
    { intros q Hq. rewrite Eout. apply (sent_flat_none q (m_pfd m) (fun _ => [MPhase (next P) (zlen log)])). intros t Ht E. apply Htos in Ht as Ht'. destruct Ht' as (Ht1 & _).
      destruct (F1 t ltac:(lia)) as (_ & X1 & n & X2). rewrite E in X1, X2.
      destruct Hq as [Hq|[Hq|Hq]]; [lia|congruence|]. apply Hq. rewrite X1. auto. }
    assert (S2 : forall q, 0 <= m_fdlid m q -> In (m_fdlid m q) tos -> sent_to q out = [MPhase (next P) (zlen log)]).
    { intros q Hq Ht. rewrite Eout. apply (sent_flat_one q (m_pfd m) (fun _ => [MPhase (next P) (zlen log)]) tos (m_fdlid m q)); auto.
      - apply (F2 q Hq).
      - intros u Hu E. apply Htos in Hu. destruct Hu as (Hu & _). destruct (F1 u ltac:(lia)) as (_ & X1 & _). rewrite <- X1, E. auto. }
    (* both cases: the state of the file descriptors and of the other processes *)
    assert (HFds : forall d', d_maxid d' = d_maxid d -> d_loc d' = d_loc d ->
       Fds (m_setreqs (m_setd m d') []) ns (push dn out) up).
    { intros d' X1 X2. constructor; cbn [m_setd m_setreqs m_d m_fdst m_fdlid m_pfd m_reqs]; rewrite ?X1, ?X2; auto.
      - intros q Hq. destruct (F3 q Hq) as (Y1 & Y2 & Y3 & Y4). unfold push. rewrite S1 by auto. rewrite Y1. auto.
      - intros q n Hn Hl. destruct (F5 q n Hn Hl) as (Y1 & Y2 & Y3). unfold push. rewrite S1 by auto. rewrite Y2. auto.
      - constructor.
      - intros q. rewrite <- F8, R16. tauto. }
    assert (HSess : forall peer', (forall x, In x (WL log) -> 1 <= x -> peer' x = PsReady) ->
       forall q n, ns q = Some n -> 0 <= m_fdlid m q -> let l := m_fdlid m q in
       if zin l (WL log) then sessA next junk n0 log (next P) (peer' l) l n (push dn out q) (up q)
       else sessR junk n0 log l n (push dn out q) (up q)).
    { intros peer' Hp q n Hn Hl. cbv zeta. destruct (F2 q Hl) as (HL & _). pose proof (R17 q n Hn Hl) as HS. cbv zeta in HS.
      set (l := m_fdlid m q) in *. fold K in HS. fold log in HS. unfold push. destruct (zin l (WL cur)) eqn:Ez.
      - apply zin_In in Ez. fold d in HS. rewrite (T1 l Ez ltac:(lia)) in HS.
        replace (is_conf (if zin l (removals rs) then PsInResizeRemove3 else PsInResize3)) with true in HS by (destruct (zin l (removals rs)); auto).
        destruct HS as (Epc & Ed & Eu & HRo). rewrite Ed, Eu, S2 by (solve [auto | apply Htos; split; [lia|auto]]). cbn [app].
        pose proof (arrive_old cur rs P l n (zlen log) HRo Epc Ez R6) as HA. fold log in HA.
        destruct (zin l (removals rs)) eqn:Er.
        + replace (zin l (WL log)) with false; [split; auto|]. symmetry. apply zin_not. rewrite HWL. apply zin_In in Er. intros [(_ & C)|C]; [tauto|]. apply HWb in Ez. lia.
        + assert (Hi : In l (WL log)) by (apply HWL; left; split; auto; apply zin_not; auto).
          replace (zin l (WL log)) with true by (symmetry; apply zin_In; auto). rewrite Hp by (auto; lia). left. auto.
      - destruct (K <=? l) eqn:Ek.
        + fold d in HS. rewrite (T2 l) in HS by lia. destruct HS as (Epc & Ed & Eu & HRo). rewrite Ed, Eu, S2 by (solve [auto | apply Htos; split; [lia|right; lia]]). cbn [app].
          assert (Hi : In l (WL log)) by (apply HWL; right; lia).
          replace (zin l (WL log)) with true by (symmetry; apply zin_In; auto). rewrite Hp by (auto; lia). left. split; auto.
          apply arrive_new; auto. fold K. lia.
        + apply zin_not in Ez. rewrite S1 by (right; right; rewrite Htos; intros (_ & [C|C]); [tauto|lia]). rewrite app_nil_r.
          replace (zin l (WL log)) with false; auto. symmetry. apply zin_not. rewrite HWL. intros [(C & _)|C]; [tauto|lia]. }
    destruct rs as [|r0 rs'].
    - (* no change *)
      rewrite Hch. cbn [negb]. eexists. eexists. split; [reflexivity|]. fold out. split; [apply HFds; auto|].
      assert (Elog : log = cur) by auto.
      assert (HT : forall x, (if (1 <=? x) && (x <=? d_maxid d) && negb (is_dead (d_peer d x)) then PsReady else d_peer d x) =
                   if (1 <=? x) && (x <? K') && negb (is_dead (d_peer d x)) then PsReady else d_peer d x).
      { intros x. replace (x <=? d_maxid d) with (x <? K') by lia. auto. }
      constructor; cbn [m_setd m_setreqs m_d m_ready m_dead m_fdlid set_st set_peers d_lid d_st d_peer d_maxid d_inst]; auto.
      + exists i. split; auto. split; [congruence|]. split; auto. split; [rewrite Elog; auto|]. split; [auto|].
        intros _ x Hx Hn. rewrite Elog in Hn. rewrite R13 by (auto; unfold K', K in *; rewrite Elog in Hx; auto). simpl. rewrite andb_false_r. auto.
      + intros x Hx. destruct (Z.eq_dec x 0) as [->|Hne]; [right; simpl; auto|]. left. rewrite Elog in Hx. pose proof (HWb x Hx).
        rewrite T1 by auto. simpl. replace ((1 <=? x) && (x <=? d_maxid d)) with true by lia. auto.
      + intros x Hx Hn. left. rewrite Elog in Hn. rewrite R13 by (auto; unfold K', K in *; rewrite Elog in Hx; auto). simpl. rewrite andb_false_r. auto.
      + rewrite R14. symmetry. apply count_ext; auto. intros x Hx. fold d in Hx |- *. simpl. replace ((1 <=? x) && (x <=? d_maxid d)) with true by lia.
        specialize (HC x ltac:(lia)). destruct (d_peer d x); auto; tauto.
      + rewrite R15. symmetry. apply count_ext; auto. intros x Hx. fold d in Hx |- *. simpl. replace ((1 <=? x) && (x <=? d_maxid d)) with true by lia.
        destruct (d_peer d x); auto.
      + apply (HSess (fun l => if (1 <=? l) && (l <=? d_maxid d) && negb (is_dead (d_peer d l)) then PsReady else d_peer d l)). intros x Hx H1. rewrite Elog in Hx. pose proof (HWb x Hx). rewrite T1 by (auto; lia). simpl. replace ((1 <=? x) && (x <=? d_maxid d)) with true by lia. auto.
    - (* change *)
      rewrite Hch. cbn [negb]. rewrite Emax.
      assert (Hne : r0 :: rs' <> []) by discriminate. set (rs := r0 :: rs') in *.
      assert (Hloc : group_locs (w_size (i_world i)) (w_mem (i_world i)) = filter (fun x => zin x (WL cur)) (zcount K')).
      { rewrite (wo_locs _ _ _ _ I4), I2, world_at_end. symmetry. apply (WL_filter n0 Hn0). fold K. lia. }
      destruct (group_fold (fun x => zin x (WL cur)) (fun x => zin x (WL log)) (i_world i) K' (end_step (i_world i) K') (d_peer d) junk) as (b & E & HB & Hpeer); auto.
      { apply (wo_max _ _ _ _ I4). }
      { intros b x Hx Hb. unfold end_step, cop. rewrite Hb. destruct (Tall x Hx) as [(Hi & Hlt)|[Hi|(Hi & Hn)]].
        - replace (zin x (WL cur)) with true by (symmetry; apply zin_In; auto).
          destruct (Z.eq_dec x 0) as [->|Hx0].
          + rewrite R10. replace (zin 0 (WL log)) with true by (symmetry; apply zin_In; auto). auto.
          + rewrite T1 by auto. destruct (zin x (removals rs)) eqn:Er.
            * replace (zin x (WL log)) with false; auto. symmetry. apply zin_not. rewrite HWL. apply zin_In in Er. intros [(_ & C)|C]; [tauto|lia].
            * replace (zin x (WL log)) with true; auto. symmetry. apply zin_In, HWL. left. split; auto. apply zin_not; auto.
        - rewrite T2 by auto. replace (zin x (WL cur)) with false by (symmetry; apply zin_not; intros C; apply HWb in C; lia).
          replace (zin x (WL log)) with true; auto. symmetry. apply zin_In, HWL. auto.
        - rewrite R13 by auto. replace (zin x (WL cur)) with false by (symmetry; apply zin_not; auto).
          replace (zin x (WL log)) with false; auto. symmetry. apply zin_not. rewrite HWL. intros [(C & _)|C]; [tauto|lia]. }
      rewrite E. cbn [obind].
      destruct (new_world_ok next junk n0 Hn0 cur rs 0 i b Hne R3 I4 I2 HB) as (Esz & i' & Ei' & N1 & N2 & N3 & N4 & N5). fold log K' in Ei', N1, N3, N5.
      rewrite Esz, Z.eqb_refl, Ei'. cbn [obind]. eexists. eexists. split; [reflexivity|]. fold out. split; [apply HFds; auto|].
      assert (P1 : forall x, In x (WL log) -> b_peer b x = PsReady).
      { intros x Hx. rewrite Hpeer. pose proof (WL_bound n0 Hn0 log x Hx) as Bx. fold K' in Bx.
        replace (zin x (WL log)) with true by (symmetry; apply zin_In; auto). rewrite orb_true_r. replace ((0 <=? x) && (x <? K')) with true by lia. auto. }
      assert (P2 : forall x, 0 <= x < K' -> ~ In x (WL log) -> b_peer b x = if zin x (WL cur) then PsReadyRemove else PsDead).
      { intros x Hx Hn. rewrite Hpeer. replace (zin x (WL log)) with false by (symmetry; apply zin_not; auto). replace ((0 <=? x) && (x <? K')) with true by lia.
        rewrite orb_false_r. simpl. destruct (zin x (WL cur)) eqn:Ez; auto. apply zin_not in Ez. apply R13; auto.
        destruct (Tall x Hx) as [(Hi & _)|[Hi|(Hi & _)]]; [tauto| |auto]. exfalso. apply Hn. apply HWL. auto. }
      constructor; cbn [m_setd m_setreqs m_d m_ready m_dead m_fdlid set_st set_peers set_inst d_lid d_st d_peer d_maxid d_inst]; auto.
      + exists i'. split; auto. split; auto. split; [congruence|]. split; auto. split; [discriminate|]. intros C. tauto.
      + discriminate.
      + intros x Hx Hn. fold K' in Hx. rewrite P2 by auto. destruct (zin x (WL cur)); auto.
      + rewrite R14. symmetry. apply count_ext; auto. intros x Hx. fold d in Hx |- *. simpl. assert (Bx : 0 <= x < K') by lia.
        destruct (in_dec Z.eq_dec x (WL log)) as [Hi|Hi].
        * rewrite P1 by auto. specialize (HC x ltac:(lia)). destruct (d_peer d x) eqn:Ep; auto; try tauto. exfalso.
          apply HWL in Hi. destruct Hi as [(Hi & _)|Hi]; [rewrite T1 in Ep by (auto; lia); destruct (zin x (removals rs)); discriminate|rewrite T2 in Ep by auto; discriminate].
        * rewrite P2 by auto. destruct (zin x (WL cur)) eqn:Ez.
          -- apply zin_In in Ez. rewrite T1 by (auto; lia). destruct (zin x (removals rs)); auto.
          -- apply zin_not in Ez. rewrite R13; auto. destruct (Tall x Bx) as [(Hj & _)|[Hj|(Hj & _)]]; [tauto| |auto]. exfalso. apply Hi. apply HWL. auto.
      + rewrite R15. symmetry. apply count_ext; auto. intros x Hx. fold d in Hx |- *. simpl. assert (Bx : 0 <= x < K') by lia.
        destruct (in_dec Z.eq_dec x (WL log)) as [Hi|Hi].
        * rewrite P1 by auto. specialize (HC x ltac:(lia)). destruct (d_peer d x) eqn:Ep; auto; try tauto. exfalso.
          apply HWL in Hi. destruct Hi as [(Hi & _)|Hi]; [rewrite T1 in Ep by (auto; lia); destruct (zin x (removals rs)); discriminate|rewrite T2 in Ep by auto; discriminate].
        * rewrite P2 by auto. destruct (zin x (WL cur)) eqn:Ez.
          -- apply zin_In in Ez. rewrite T1 by (auto; lia). destruct (zin x (removals rs)); auto.
          -- apply zin_not in Ez. rewrite R13; auto. destruct (Tall x Bx) as [(Hj & _)|[Hj|(Hj & _)]]; [tauto| |auto]. exfalso. apply Hi. apply HWL. auto.
      + apply (HSess (b_peer b)). intros x Hx H1. apply P1; auto.
  Qed.
End Rounds.
