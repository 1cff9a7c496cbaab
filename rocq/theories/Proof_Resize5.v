(* What the steps of a process other than the master preserve *)
From Coq Require Import ZArith List Bool Lia ZifyBool ZifyNat.
From Verif Require Import Base Model_Space Model_RangeList Model_Partitioner Model_Resize Spec_Resize Proof_Resize1 Proof_Resize2 Proof_Resize3 Proof_Resize4.
Import ListNotations.
Open Scope Z_scope.

(* an event of one process: new state, commands left, commands sent *)
Definition local (next junk : Z -> Z) (ev : event) (n : nproc) (dn : list msg) : option (outcome (nproc * list msg * list msg)) :=
  match ev with
  | EvCall _ =>
    match n with
    | mkNp d NApp => Some (do r <- node_call (next (phase_of d)) d;
                      let '(d', w, out) := r in Ok (mkNp d' (if w then NWait else NApp), dn, out))
    | _ => None
    end
  | EvFinish _ =>
    match n with
    | mkNp d NApp => Some (do d' <- finish_node d; Ok (mkNp d' NApp, dn, []))
    | _ => None
    end
  | EvGo _ => if may_go n then Some (do n' <- go_node junk n; Ok (n', dn, [])) else None
  | EvDown _ =>
    match dn with
    | c :: rest => Some (do r <- node_cmd c (np_d n); Ok (mkNp (fst r) (np_pc n), rest, snd r))
    | [] => None
    end
  | _ => None
  end.
Definition ev_proc (ev : event) : option Z :=
  match ev with EvCall q | EvFinish q | EvGo q | EvDown q => Some q | _ => None end.

(* the system after an event of one process *)
Definition Upd (s s' : sys) (q : Z) (n : nproc) (dn up : list msg) : Prop :=
  s_m s' = s_m s /\ s_mpc s' = s_mpc s /\
  s_n s' q = Some n /\ s_down s' q = dn /\ s_up s' q = up /\
  (forall x, x <> q -> s_n s' x = s_n s x /\ s_down s' x = s_down s x /\ s_up s' x = s_up s x).

Lemma upd_with_n s q d pc out : Upd s (with_n s q d pc out) q (mkNp d pc) (s_down s q) (s_up s q ++ out).
Proof.
  unfold Upd, with_n, push1. simpl. repeat split; auto; try apply setz_eq; try (apply setz_ne; auto).
Qed.

Lemma exec_local next junk s ev q r :
  ev_proc ev = Some q -> exec next junk s ev = Some r ->
  exists n lr, s_n s q = Some n /\ local next junk ev n (s_down s q) = Some lr /\
    (forall n' dn' out, lr = Ok (n', dn', out) -> exists s', r = Ok s' /\ Upd s s' q n' dn' (s_up s q ++ out)).
Proof.
  intros Hq H. destruct ev; try discriminate; injection Hq as <-; cbn [exec] in H; cbn [local].
  - destruct (s_n s q0) as [[d pc]|] eqn:E; [|discriminate]. destruct pc; try discriminate. injection H as <-.
    eexists. eexists. split; [reflexivity|]. split; [reflexivity|].
    intros n' dn' out Hr. destruct (node_call (next (phase_of d)) d) as [[[d' w] o]| | | |]; try discriminate.
    cbn [obind] in *. injection Hr as <- <- <-. eexists. split; [reflexivity|]. apply upd_with_n.
  - destruct (s_n s q0) as [[d pc]|] eqn:E; [|discriminate]. destruct pc; try discriminate. injection H as <-.
    eexists. eexists. split; [reflexivity|]. split; [reflexivity|].
    intros n' dn' out Hr. destruct (finish_node d) as [d'| | | |]; try discriminate.
    cbn [obind] in *. injection Hr as <- <- <-. eexists. split; [reflexivity|]. apply upd_with_n.
  - destruct (s_n s q0) as [n|] eqn:E; [|discriminate]. destruct (may_go n) eqn:Eg; [|discriminate]. injection H as <-.
    exists n. eexists. split; [reflexivity|]. rewrite Eg. split; [reflexivity|].
    intros n' dn' out Hr. destruct (go_node junk n) as [d'| | | |]; try discriminate.
    cbn [obind] in *. injection Hr as <- <- <-. eexists. split; [reflexivity|]. destruct d' as [d' pc']. apply upd_with_n.
  - destruct (s_n s q0) as [n|] eqn:E; [|discriminate]. destruct (s_down s q0) as [|c rest] eqn:Ed; [discriminate|]. injection H as <-.
    exists n. eexists. split; [reflexivity|]. split; [reflexivity|].
    intros n' dn' out Hr. destruct (node_cmd c (np_d n)) as [[d' o]| | | |]; try discriminate.
    cbn [obind fst snd] in *. injection Hr as <- <- <-. eexists. split; [reflexivity|].
    unfold Upd, with_n, push1. simpl. repeat split; auto; try apply setz_eq; try (apply setz_ne; auto).
Qed.

Section Sess.
  Variables (next junk : Z -> Z) (n0 : Z).
  Hypothesis Hn0 : 0 <= n0.
  Hypothesis Hnext : forall p, next p <> -1.
  Notation WL := (WL n0). Notation NL := (NL n0).

  (* what happens when all commands on the connection are handled and the wait, if it ends, ends *)
  Definition fut (n : nproc) (dn : list msg) : outcome nproc :=
    do r <- drain dn (np_d n) [];
    let n1 := mkNp (fst r) (np_pc n) in
    if may_go n1 then go_node junk n1 else Ok n1.
  Definition lag (n : nproc) (dn : list msg) : Prop :=
    dn = [] \/ (exists p e, dn = [MPhase p e] /\ np_pc n <> NApp /\ may_go n = false).

  Definition arrives (Q : node -> Prop) (n : nproc) (dn : list msg) : Prop :=
    lag n dn /\ exists nf, fut n dn = Ok nf /\ np_pc nf = NApp /\ Q (np_d nf).

  (* a member of the world between resizes; [ps]: what the master takes it for *)
  Definition sessA (log : list (list req)) (P : Z) (ps : pstate) (l : Z) (n : nproc) (dn up : list msg) : Prop :=
    match ps with
    | PsReady => (up = [] /\ arrives (Settled n0 log P l) n dn) \/
                 ((exists p e, up = [MEnter p e]) /\ dn = [] /\ np_pc n = NWait /\ Entered next n0 log P l (np_d n))
    | PsInResize => up = [] /\ dn = [] /\ np_pc n = NWait /\ Entered next n0 log P l (np_d n)
    | _ => False
    end.
  Definition sessR (log : list (list req)) (l : Z) (n : nproc) (dn up : list msg) : Prop :=
    up = [] /\ arrives (Gone n0 log l) n dn.

  (* during a resize *)
  Definition info (c : msg) : Prop := match c with MId _ | MNewId _ | MBackedout _ => True | _ => False end.
  Definition sessB (Q : node -> Prop) (conf : bool) (pc : npc) (n : nproc) (dn up : list msg) : Prop :=
    np_pc n = pc /\
    if conf then dn = [] /\ up = [] /\ Q (np_d n)
    else (exists d', drain dn (np_d n) up = Ok (d', [MOk]) /\ Q d') /\
         ((exists pre, dn = pre ++ [MGetready] /\ Forall info pre /\ up = []) \/ (dn = [] /\ up = [MOk])).

  Lemma fut_nil n : may_go n = false -> fut n [] = Ok n.
  Proof. intros H. unfold fut. simpl. destruct n as [d pc]. simpl. rewrite H. auto. Qed.
  Lemma fut_go n : may_go n = true -> fut n [] = go_node junk n.
  Proof. intros H. unfold fut. simpl. destruct n as [d pc]. simpl. rewrite H. auto. Qed.
  Lemma go_app n n' : go_node junk n = Ok n' -> np_pc n' = NApp.
  Proof. unfold go_node. intros H. apply obind_ok in H. destruct H as (d & _ & H). injection H as <-. auto. Qed.
  Lemma app_nogo n : np_pc n = NApp -> may_go n = false.
  Proof. intros H. unfold may_go. rewrite H. auto. Qed.
  Lemma fut_phase n p e : fut n [MPhase p e] = fut (mkNp (got_phase p e (np_d n)) (np_pc n)) [].
  Proof. reflexivity. Qed.

  (* steps of a process on its way *)
  Lemma arrives_go Q n dn q lr :
    arrives Q n dn -> local next junk (EvGo q) n dn = Some lr -> exists n', lr = Ok (n', dn, []) /\ arrives Q n' dn.
  Proof.
    intros (Hl & nf & Hf & Hpc & HQ) H. cbn [local] in H. destruct (may_go n) eqn:Eg; [|discriminate]. injection H as <-.
    destruct Hl as [->|(p & e & -> & _ & Hg)]; [|congruence]. rewrite fut_go in Hf by auto.
    rewrite Hf. cbn [obind]. exists nf. split; auto. split; [left; auto|]. exists nf.
    split; [apply fut_nil; apply app_nogo; auto|auto].
  Qed.
  Lemma arrives_down Q n dn q lr :
    arrives Q n dn -> local next junk (EvDown q) n dn = Some lr -> exists n' dn', lr = Ok (n', dn', []) /\ arrives Q n' dn'.
  Proof.
    intros (Hl & nf & Hf & Hpc & HQ) H. cbn [local] in H. destruct dn as [|c rest]; [discriminate|]. injection H as <-.
    destruct Hl as [|(p & e & E & _ & Hg)]; [discriminate|]. injection E as -> ->. cbn [node_cmd obind fst snd].
    eexists. eexists. split; [reflexivity|]. split; [left; auto|]. exists nf. rewrite fut_phase in Hf. auto.
  Qed.
  (* in the application, it has arrived *)
  Lemma arrives_app Q n dn : arrives Q n dn -> np_pc n = NApp -> dn = [] /\ Q (np_d n).
  Proof.
    intros (Hl & nf & Hf & Hpc & HQ) H. destruct Hl as [->|(p & e & _ & Hne & _)]; [|congruence].
    rewrite fut_nil in Hf by (apply app_nogo; auto). injection Hf as <-. auto.
  Qed.
  Lemma arrived (Q : node -> Prop) d : Q d -> arrives Q (mkNp d NApp) [].
  Proof. intros H. split; [left; auto|]. exists (mkNp d NApp). split; [apply fut_nil; auto|]. auto. Qed.

  Lemma finish_settled log P l d : In 0 (WL log) -> Settled n0 log P l d ->
    exists d', finish_node d = Ok d' /\ Settled n0 log P l d' /\
      exists i, d_inst d' = Some i /\ w_parent (i_world i) = None.
  Proof.
    intros H0 [S1 S2 S3 S4 S5 S6 S7]. destruct S3 as (i & Ei & E1 & E2 & E3 & E4).
    unfold finish_node. rewrite Ei. destruct (w_parent (i_world i)) as [p|] eqn:Ep.
    - eexists. split; [reflexivity|].
      assert (F : forall x, 0 <= x < NL log -> ~ In x (WL log) -> finish_peers d x = PsDead).
      { intros x Hx Hn. unfold finish_peers. destruct (Z.eq_dec x 0) as [->|]; [tauto|].
        replace ((1 <=? x) && (x <=? d_maxid d)) with true by lia.
        destruct (S7 x Hx Hn) as [E|E]; rewrite E; auto. }
      split.
      + constructor; simpl; auto.
        * exists (clear_parent i). split; [auto|]. split; [auto|]. split; [auto|]. split; [apply world_ok_clear; auto|].
          intros _. exact F.
        * intros x Hx. unfold finish_peers. rewrite S6 by auto. destruct ((1 <=? x) && (x <=? d_maxid d)); auto.
      + exists (clear_parent i). auto.
    - exists d. split; auto. split; [|exists i; auto]. constructor; auto. exists i; rewrite ?Ep; auto 8.
  Qed.

  Lemma phase_settled log P l d p : Settled n0 log P l d ->
    exists d', set_phase p d = Ok d' /\ Settled n0 log p l d'.
  Proof.
    intros [S1 S2 S3 S4 S5 S6 S7]. destruct S3 as (i & Ei & E1 & E2 & E3 & E4). unfold set_phase. rewrite Ei.
    eexists. split; [reflexivity|]. constructor; simpl; auto.
    eexists. split; [reflexivity|]. cbn [i_epoch i_phase i_world]. split; auto. split; auto. split; auto.
    apply world_ok_phase. auto.
  Qed.

  Lemma call_settled log P l d : In 0 (WL log) -> In l (WL log) -> Settled n0 log P l d ->
    exists d' p e, node_call (next (phase_of d)) d = Ok (d', true, [MEnter p e]) /\ Entered next n0 log P l d'.
  Proof.
    intros H0 Hl HS.
    assert (Ep : phase_of d = P).
    { destruct HS as [_ _ (i & Ei & _ & E2 & _) _ _ _ _]. unfold phase_of. rewrite Ei. auto. }
    rewrite Ep. unfold node_call.
    destruct (phase_settled log P l d (next P) HS) as (d1 & E1 & S1). rewrite E1. cbn [obind].
    destruct (finish_settled log (next P) l d1 H0 S1) as (d2 & E2 & S2 & (j & Ej & Epar)). rewrite E2. cbn [obind].
    destruct S2 as [A1 A2 A3 A4 A5 A6 A7]. unfold enter_resize. rewrite Ej, Epar, A2. cbn [obind d_inst set_st set_peer]. rewrite Ej.
    eexists. eexists. eexists. split; [reflexivity|].
    destruct A3 as (i & Ei & B1 & B2 & B3 & B4). rewrite Ej in Ei. injection Ei as <-.
    constructor; simpl; auto.
    - exists j. auto.
    - rewrite A1. apply setz_eq.
    - intros x Hx Hne. rewrite A1, setz_ne by auto. auto.
    - intros x Hx Hn. rewrite A1, setz_ne by (intros ->; auto). apply B4; auto.
  Qed.

  Lemma finish_gone log l d : Gone n0 log l d -> exists d', finish_node d = Ok d' /\ Gone n0 log l d' /\
      exists i, d_inst d' = Some i /\ w_parent (i_world i) = None.
  Proof.
    intros [G1 G2 (i & Ei & Ok1 & My)]. unfold finish_node. rewrite Ei. destruct (w_parent (i_world i)) as [p|] eqn:Ep.
    - eexists. split; [reflexivity|]. split.
      + constructor; simpl; auto. exists (clear_parent i). split; auto. split; [apply world_ok_clear; auto|auto].
      + exists (clear_parent i). auto.
    - exists d. split; auto. split; [|exists i; auto]. constructor; auto. exists i; rewrite ?Ep; auto 8.
  Qed.
  Lemma call_gone log l d p : Gone n0 log l d -> exists d', node_call p d = Ok (d', false, []) /\ Gone n0 log l d'.
  Proof.
    intros [G1 G2 (i & Ei & Ok1 & My)]. unfold node_call, set_phase. rewrite Ei. cbn [obind].
    set (d1 := set_inst d _).
    assert (HG : Gone n0 log l d1).
    { constructor; simpl; auto. eexists. split; [reflexivity|]. split; [apply world_ok_phase; auto|auto]. }
    destruct (finish_gone log l d1 HG) as (d2 & E2 & [S1 S2 S3] & (j & Ej & Epar)). rewrite E2. cbn [obind].
    unfold enter_resize. rewrite Ej, Epar, S2. cbn [obind]. exists d2. split; auto. constructor; auto.
  Qed.

  Lemma entered_nogo log P l n : Entered next n0 log P l (np_d n) -> np_pc n = NWait -> may_go n = false.
  Proof.
    intros [E1 E2 (i & Ei & _ & Eph & _) E4 _ _ _ _ _] Hpc. unfold may_go. rewrite Hpc, Ei, E4, Eph.
    destruct (Z.eqb_spec (-1) (next P)); auto. exfalso. apply (Hnext P). auto.
  Qed.

  Lemma local_A log P ps l ev q n dn up lr :
    In 0 (WL log) -> In l (WL log) -> ev_proc ev = Some q ->
    sessA log P ps l n dn up -> local next junk ev n dn = Some lr ->
    exists n' dn' out, lr = Ok (n', dn', out) /\ sessA log P ps l n' dn' (up ++ out).
  Proof.
    intros H0 Hl Hq HS H. unfold sessA in *.
    assert (HA : dn = [] -> np_pc n = NWait -> Entered next n0 log P l (np_d n) -> local next junk ev n dn = Some lr -> False).
    { intros -> Hpc HE HL. destruct ev; try discriminate; cbn [local] in HL.
      - destruct n as [d pc]. simpl in Hpc. subst pc. discriminate.
      - destruct n as [d pc]. simpl in Hpc. subst pc. discriminate.
      - rewrite (entered_nogo _ _ _ _ HE Hpc) in HL. discriminate. }
    destruct ps; try tauto.
    - destruct HS as [(-> & HS)|(_ & E1 & E2 & E3)]; [|exfalso; eapply HA; eauto].
      destruct ev; try discriminate.
      + cbn [local] in H. destruct n as [d pc]. destruct pc; try discriminate. injection H as <-.
        destruct (arrives_app _ _ _ HS eq_refl) as (-> & HSt). cbn [np_d] in HSt.
        destruct (call_settled _ _ _ _ H0 Hl HSt) as (d' & p & e & E & HE). rewrite E. cbn [obind].
        eexists. eexists. eexists. split; [reflexivity|]. right. simpl. split; [eauto|]. auto.
      + cbn [local] in H. destruct n as [d pc]. destruct pc; try discriminate. injection H as <-.
        destruct (arrives_app _ _ _ HS eq_refl) as (-> & HSt). cbn [np_d] in HSt.
        destruct (finish_settled _ _ _ _ H0 HSt) as (d' & E & HE & _). rewrite E. cbn [obind].
        eexists. eexists. eexists. split; [reflexivity|]. left. split; auto. apply arrived. auto.
      + destruct (arrives_go _ _ _ _ _ HS H) as (n' & -> & HS'). eexists. eexists. eexists. split; [reflexivity|]. left; auto.
      + destruct (arrives_down _ _ _ _ _ HS H) as (n' & dn' & -> & HS'). eexists. eexists. eexists. split; [reflexivity|]. left; auto.
  Qed.

  Lemma local_R log l ev q n dn up lr :
    ev_proc ev = Some q -> sessR log l n dn up -> local next junk ev n dn = Some lr ->
    exists n' dn' out, lr = Ok (n', dn', out) /\ sessR log l n' dn' (up ++ out).
  Proof.
    intros Hq (-> & HS) H. unfold sessR. destruct ev; try discriminate.
    - cbn [local] in H. destruct n as [d pc]. destruct pc; try discriminate. injection H as <-.
      destruct (arrives_app _ _ _ HS eq_refl) as (-> & HSt). cbn [np_d] in HSt.
      destruct (call_gone _ _ _ (next (phase_of d)) HSt) as (d' & E & HE). rewrite E. cbn [obind].
      eexists. eexists. eexists. split; [reflexivity|]. split; auto. apply arrived. auto.
    - cbn [local] in H. destruct n as [d pc]. destruct pc; try discriminate. injection H as <-.
      destruct (arrives_app _ _ _ HS eq_refl) as (-> & HSt). cbn [np_d] in HSt.
      destruct (finish_gone _ _ _ HSt) as (d' & E & HE & _). rewrite E. cbn [obind].
      eexists. eexists. eexists. split; [reflexivity|]. split; auto. apply arrived. auto.
    - destruct (arrives_go _ _ _ _ _ HS H) as (n' & -> & HS'). eexists. eexists. eexists. split; [reflexivity|]. auto.
    - destruct (arrives_down _ _ _ _ _ HS H) as (n' & dn' & -> & HS'). eexists. eexists. eexists. split; [reflexivity|]. auto.
  Qed.

  (* no command of a resize before its end touches phase and instance *)
  Lemma cmd_keeps c d d' out : node_cmd c d = Ok (d', out) -> info c \/ c = MGetready ->
    d_phase d' = d_phase d /\ d_inst d' = d_inst d.
  Proof.
    intros H Hc. destruct c; simpl in Hc; try (destruct Hc; [easy|discriminate]); cbn [node_cmd] in H.
    - unfold omap, got_id, cassert in H. destruct ((0 <=? lid) && (lid <? max_peers)); [|discriminate].
      destruct (d_lid d <? 0); [injection H as <- <-; auto|].
      destruct (negb (lid =? d_lid d)); [|discriminate]. destruct (negb (d_loc d lid)); [|discriminate].
      destruct (d_st d); try discriminate; injection H as <- <-; auto.
    - unfold omap, got_id, cassert in H. destruct ((0 <=? lid) && (lid <? max_peers)); [|discriminate].
      destruct (d_lid d <? 0); [injection H as <- <-; auto|].
      destruct (negb (lid =? d_lid d)); [|discriminate]. destruct (negb (d_loc d lid)); [|discriminate].
      destruct (d_st d); try discriminate; injection H as <- <-; auto.
    - unfold omap, got_backedout, cassert in H.
      destruct (d_st d); try discriminate; (destruct ((0 <? lid) && (lid <=? d_maxid d)); [|discriminate]);
      destruct (d_peer d lid); try discriminate; injection H as <- <-; destruct (d_lid d =? lid); auto.
    - injection H as H. unfold got_getready in H. destruct (d_st d); injection H as <- <-; auto.
  Qed.
  Lemma drain_keeps dn d d' up up' : drain dn d up = Ok (d', up') -> Forall (fun c => info c \/ c = MGetready) dn ->
    d_phase d' = d_phase d /\ d_inst d' = d_inst d.
  Proof.
    revert d up. induction dn as [|c dn IH]; intros d up H F; simpl in H.
    - injection H as <- <-. auto.
    - inversion F; subst. apply obind_ok in H. destruct H as ([d1 o] & E & H). simpl in H.
      destruct (cmd_keeps _ _ _ _ E H2) as (A & B). destruct (IH _ _ H H3). split; congruence.
  Qed.

  Lemma info_silent c d d' out : node_cmd c d = Ok (d', out) -> info c -> out = [].
  Proof.
    intros H Hc. destruct c; try easy; cbn [node_cmd] in H; unfold omap in H; apply obind_ok in H; destruct H as (x & _ & H);
    injection H as <- <-; auto.
  Qed.

  Lemma local_B (Q : node -> Prop) conf pc ev q n dn up lr :
    ev_proc ev = Some q -> pc <> NApp ->
    (forall d, Q d -> may_go (mkNp d pc) = false) ->
    (forall d d', d_phase d' = d_phase d -> d_inst d' = d_inst d -> d_phase d = -1 -> may_go (mkNp d pc) = false -> may_go (mkNp d' pc) = false) ->
    (forall d, Q d -> d_phase d = -1) ->
    sessB Q conf pc n dn up -> local next junk ev n dn = Some lr ->
    exists n' dn' out, lr = Ok (n', dn', out) /\ sessB Q conf pc n' dn' (up ++ out).
  Proof.
    intros Hq Hpc HQ1 HQ2 HQ3 (Epc & HS) H. unfold sessB.
    assert (Hgo : forall q', ev = EvGo q' -> False).
    { intros q' ->. cbn [local] in H. destruct n as [d pc']. simpl in Epc. subst pc'.
      replace (may_go (mkNp d pc)) with false in H; [discriminate|]. symmetry.
      destruct conf.
      - destruct HS as (_ & _ & HQ). auto.
      - destruct HS as ((d' & D & HQ) & Hsh).
        assert (F : Forall (fun c => info c \/ c = MGetready) dn).
        { destruct Hsh as [(pre & -> & F & _)|(-> & _)]; [|constructor]. apply Forall_app. split.
          - eapply Forall_impl; [|exact F]. auto.
          - constructor; auto. }
        destruct (drain_keeps _ _ _ _ _ D F) as (K1 & K2). simpl in K1, K2. apply (HQ2 d' d); auto. }
    destruct ev; try discriminate.
    - cbn [local] in H. destruct n as [d pc']. simpl in Epc. subst pc'. destruct pc; try discriminate. tauto.
    - cbn [local] in H. destruct n as [d pc']. simpl in Epc. subst pc'. destruct pc; try discriminate. tauto.
    - exfalso. eapply Hgo. reflexivity.
    - cbn [local] in H. destruct dn as [|c rest]; [discriminate|]. injection H as <-.
      destruct conf; [destruct HS; discriminate|]. destruct HS as ((d' & D & HQ) & Hsh).
      simpl in D. apply obind_ok in D. destruct D as ([d1 o] & E & D). simpl in D. rewrite E. cbn [obind fst snd].
      eexists. eexists. eexists. split; [reflexivity|]. split; [auto|]. split; [exists d'; auto|].
      destruct Hsh as [(pre & Epre & F & ->)|(? & _)]; [|discriminate]. simpl.
      destruct pre as [|c' pre]; injection Epre as -> ->.
      + right. split; auto. simpl in D. injection D as -> Eo. simpl in Eo. auto.
      + left. exists pre. inversion F; subst. split; auto. split; auto. eapply info_silent; eauto.
  Qed.
End Sess.
