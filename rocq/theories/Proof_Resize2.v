(* A process other than the master during one resize *)
From Coq Require Import ZArith List Bool Lia ZifyBool ZifyNat.
From Verif Require Import Base Model_Space Model_RangeList Model_Partitioner Model_Resize Spec_Resize Proof_Resize1.
Import ListNotations.
Open Scope Z_scope.

(* handle a list of commands, with the commands sent *)
Fixpoint drain (c : list msg) (d : node) (up : list msg) : outcome (node * list msg) :=
  match c with
  | [] => Ok (d, up)
  | m :: c' => do r <- node_cmd m d; drain c' (fst r) (up ++ snd r)
  end.

Definition same (d d' : node) : Prop :=
  d_lid d' = d_lid d /\ d_phase d' = d_phase d /\ d_epoch d' = d_epoch d /\ d_inst d' = d_inst d.
Lemma same_refl d : same d d. Proof. unfold same; auto. Qed.
Lemma same_trans a b c : same a b -> same b c -> same a c.
Proof. unfold same. intuition congruence. Qed.

Definition idmsg (nw : bool) : Z -> msg := if nw then MNewId else MId.
Definition idstate (nw : bool) : pstate := if nw then PsNoConnect else PsInResize.

Lemma drain_ids nw rest ids : forall d up,
  (d_st d = PsRegAccepted \/ (d_st d = PsInResize /\ nw = true)) -> 0 <= d_lid d -> NoDup ids ->
  (forall x, In x ids -> 0 <= x < max_peers /\ x <> d_lid d /\ d_loc d x = false) ->
  exists d', drain (map (idmsg nw) ids ++ rest) d up = drain rest d' up /\ same d d' /\ d_st d' = d_st d /\
    (forall x, d_peer d' x = if zin x ids then idstate nw else d_peer d x) /\
    (forall x, d_loc d' x = zin x ids || d_loc d x) /\
    d_peers d' = d_peers d + zlen ids /\
    d_maxid d <= d_maxid d' /\ (forall x, In x ids -> x <= d_maxid d') /\ (d_maxid d' = d_maxid d \/ In (d_maxid d') ids).
Proof.
  induction ids as [|a ids IH]; intros d up Hs Hl Hn Hi.
  - exists d. simpl. rewrite zlen_nil. repeat split; auto; try lia; try easy.
  - inversion Hn as [|? ? Hna Hn']; subst.
    destruct (Hi a (or_introl eq_refl)) as (Ha & Hal & Haloc).
    set (d1 := mkNode (d_lid d) (d_st d) (setz (d_peer d) a (idstate nw)) (setz (d_loc d) a true)
          (if d_maxid d <? a then a else d_maxid d) (d_peers d + 1) (d_phase d) (d_epoch d) (d_inst d)).
    assert (E : node_cmd (idmsg nw a) d = Ok (d1, [])).
    { assert (G : got_id nw a d = Ok d1).
      { unfold got_id, cassert. rewrite Haloc.
        destruct (d_lid d <? 0) eqn:E1; [lia|]. destruct (a =? d_lid d) eqn:E2; [lia|].
        replace ((0 <=? a) && (a <? max_peers)) with true by lia. simpl.
        destruct Hs as [Hs|(Hs & ->)]; rewrite Hs; unfold d1; rewrite Hs; simpl; auto. }
      destruct nw; simpl; rewrite G; auto. }
    destruct (IH d1 up) as (d' & E' & S & St & Pe & Lo & Pn & Mx1 & Mx2 & Mx3); auto.
    { intros x Hx. destruct (Hi x (or_intror Hx)) as (B & B2 & B3). simpl. repeat split; auto; try lia.
      rewrite setz_ne; auto. intros ->. auto. }
    exists d'. simpl map. simpl app. cbn [drain]. rewrite E. cbn [obind fst snd]. rewrite app_nil_r. rewrite E'.
    split; [auto|]. split; [unfold same in *; simpl in S; auto|]. split; [auto|].
    split; [|split; [|split; [|split; [|split]]]].
    + intros x. rewrite Pe. simpl. unfold setz. destruct (Z.eqb_spec x a); [subst|]; simpl.
      * replace (zin a ids) with false; auto. symmetry. apply zin_not. auto.
      * auto.
    + intros x. rewrite Lo. simpl. unfold setz. destruct (Z.eqb_spec x a); simpl; auto. rewrite orb_true_r. auto.
    + rewrite Pn, zlen_cons. simpl. lia.
    + simpl in Mx1. destruct (d_maxid d <? a) eqn:E1; lia.
    + intros x [->|Hx]; [|auto]. simpl in Mx1. destruct (d_maxid d <? x) eqn:E1; lia.
    + simpl in Mx3. destruct Mx3 as [Mx3|Mx3]; [|right; right; auto].
      destruct (d_maxid d <? a) eqn:E1; [right; left; lia|left; lia].
Qed.

Definition can_back (s : pstate) : Prop := s = PsInResize \/ s = PsReady.
Definition st_back (s : pstate) : Prop := s = PsRegAccepted \/ s = PsInResize \/ s = PsInResizeRemove.

Lemma drain_backs rest bs : forall d up,
  st_back (d_st d) -> NoDup bs -> (forall x, In x bs -> 0 < x <= d_maxid d /\ can_back (d_peer d x)) ->
  exists d', drain (map MBackedout bs ++ rest) d up = drain rest d' up /\ same d d' /\
    d_st d' = (if zin (d_lid d) bs then PsInResizeRemove else d_st d) /\
    (forall x, d_peer d' x = if zin x bs then PsInResizeRemove else d_peer d x) /\
    d_loc d' = d_loc d /\ d_peers d' = d_peers d /\ d_maxid d' = d_maxid d.
Proof.
  induction bs as [|a bs IH]; intros d up Hs Hn Hi.
  - exists d. simpl. repeat split; auto.
  - inversion Hn as [|? ? Hna Hn']; subst.
    destruct (Hi a (or_introl eq_refl)) as (Ha & Hst).
    set (d1 := if d_lid d =? a then set_st (set_peer d a PsInResizeRemove) PsInResizeRemove else set_peer d a PsInResizeRemove).
    assert (E : node_cmd (MBackedout a) d = Ok (d1, [])).
    { simpl. unfold got_backedout, cassert, omap. replace ((0 <? a) && (a <=? d_maxid d)) with true by lia.
      destruct Hs as [Hs|[Hs|Hs]]; rewrite Hs; destruct Hst as [Hst|Hst]; rewrite Hst; simpl; auto. }
    assert (F : same d d1 /\ d_loc d1 = d_loc d /\ d_peers d1 = d_peers d /\ d_maxid d1 = d_maxid d /\
                d_peer d1 = setz (d_peer d) a PsInResizeRemove /\
                d_st d1 = (if d_lid d =? a then PsInResizeRemove else d_st d)).
    { unfold d1. destruct (d_lid d =? a); simpl; unfold same; simpl; auto 10. }
    destruct F as (F1 & F2 & F3 & F4 & F5 & F6).
    destruct (IH d1 up) as (d' & E' & S & St & Pe & Lo & Pn & Mx); auto.
    { rewrite F6. destruct (d_lid d =? a); auto. right; right; auto. }
    { intros x Hx. destruct (Hi x (or_intror Hx)) as (B & B2). rewrite F4, F5. split; auto.
      rewrite setz_ne; auto. intros ->; auto. }
    exists d'. simpl map. simpl app. cbn [drain]. rewrite E. cbn [obind fst snd]. rewrite app_nil_r. rewrite E'.
    split; [auto|]. split; [eapply same_trans; eauto|].
    destruct F1 as (F1 & _). split; [|split; [|repeat split; congruence]].
    + rewrite St, F1, F6. simpl. destruct (Z.eqb_spec (d_lid d) a); simpl; auto. destruct (zin (d_lid d) bs); auto.
    + intros x. rewrite Pe, F5. simpl. unfold setz. destruct (Z.eqb_spec x a); simpl; auto. destruct (zin x bs); auto.
Qed.

(** States of a process, [log]: the resizes completed, [P]: the phase of the last one *)
Section States.
  Variables (next : Z -> Z) (n0 : Z).
  Definition WL (log : list (list req)) : list Z := fst (world_after n0 log).
  Definition NL (log : list (list req)) : Z := snd (world_after n0 log).
  Definition nlog (cur : list (list req)) (rs : list req) : list (list req) :=
    match rs with [] => cur | _ => cur ++ [rs] end.

  (* has this world *)
  Record Settled (log : list (list req)) (P l : Z) (d : node) : Prop := {
    se_lid : d_lid d = l;
    se_st : d_st d = PsReady;
    se_inst : exists i, d_inst d = Some i /\ i_epoch i = zlen log /\ i_phase i = P /\ world_ok n0 log l i /\
       (w_parent (i_world i) = None -> forall x, 0 <= x < NL log -> ~ In x (WL log) -> d_peer d x = PsDead);
    se_max : d_maxid d = NL log - 1;
    se_loc : forall x, NL log <= x -> d_loc d x = false;
    se_in : forall x, In x (WL log) -> d_peer d x = PsReady;
    se_out : forall x, 0 <= x < NL log -> ~ In x (WL log) -> d_peer d x = PsDead \/ d_peer d x = PsReadyRemove }.

  (* waits in the call *)
  Record Entered (log : list (list req)) (P l : Z) (d : node) : Prop := {
    en_lid : d_lid d = l;
    en_st : d_st d = PsInResize;
    en_inst : exists i, d_inst d = Some i /\ i_epoch i = zlen log /\ i_phase i = next P /\ world_ok n0 log l i /\
       w_parent (i_world i) = None;
    en_phase : d_phase d = -1;
    en_max : d_maxid d = NL log - 1;
    en_loc : forall x, NL log <= x -> d_loc d x = false;
    en_own : d_peer d l = PsInResize;
    en_in : forall x, In x (WL log) -> x <> l -> d_peer d x = PsReady;
    en_out : forall x, 0 <= x < NL log -> ~ In x (WL log) -> d_peer d x = PsDead }.

  (* no longer part of the world *)
  Record Gone (log : list (list req)) (l : Z) (d : node) : Prop := {
    go_lid : d_lid d = l;
    go_st : d_st d = PsReadyRemove;
    go_inst : exists i, d_inst d = Some i /\ world_ok n0 log l i /\ w_myid (i_world i) = -1 }.

  (* knows the result of the resize with requests [rs] *)
  Record RoundOld (cur : list (list req)) (rs : list req) (P l : Z) (d : node) : Prop := {
    ro_lid : d_lid d = l;
    ro_st : d_st d = if zin l (removals rs) then PsReadyRemove else PsReady;
    ro_inst : exists i, d_inst d = Some i /\ i_epoch i = zlen cur /\ i_phase i = next P /\ world_ok n0 cur l i /\
       w_parent (i_world i) = None;
    ro_phase : d_phase d = -1;
    ro_max : d_maxid d = NL cur + zlen (joins rs) - 1;
    ro_loc : forall x, NL cur + zlen (joins rs) <= x -> d_loc d x = false;
    ro_own : d_peer d l = if zin l (removals rs) then PsReadyRemove else PsReady;
    ro_in : forall x, In x (WL cur) -> x <> l -> d_peer d x = if zin x (removals rs) then PsInResizeRemove else PsReady;
    ro_new : forall x, NL cur <= x < NL cur + zlen (joins rs) -> d_peer d x = PsNoConnect;
    ro_out : forall x, 0 <= x < NL cur -> ~ In x (WL cur) -> d_peer d x = PsDead }.

  Record RoundNew (cur : list (list req)) (rs : list req) (l : Z) (d : node) : Prop := {
    rn_lid : d_lid d = l;
    rn_st : d_st d = PsReady;
    rn_inst : d_inst d = None;
    rn_phase : d_phase d = -1;
    rn_max : d_maxid d = NL cur + zlen (joins rs) - 1;
    rn_peers : d_peers d = zlen (WL cur) + zlen (joins rs) - 1;
    rn_loc : forall x, NL cur + zlen (joins rs) <= x -> d_loc d x = false;
    rn_own : d_peer d l = PsReady;
    rn_in : forall x, In x (WL cur) -> d_peer d x = if zin x (removals rs) then PsInResizeRemove else PsInResize;
    rn_new : forall x, NL cur <= x < NL cur + zlen (joins rs) -> x <> l -> d_peer d x = PsNoConnect;
    rn_out : forall x, 0 <= x < NL cur -> ~ In x (WL cur) -> d_peer d x = PsInvalid }.

  Lemma next_world cur rs : world_after n0 (nlog cur rs) = resized (world_after n0 cur) rs.
  Proof.
    unfold nlog. destruct rs as [|r rs]; [|apply world_after_snoc].
    unfold resized, joins, removals, zfrom, zlen. simpl. rewrite app_nil_r, filter_true by auto. rewrite Z.add_0_r.
    destruct (world_after n0 cur); auto.
  Qed.
  Lemma NL_next cur rs : NL (nlog cur rs) = NL cur + zlen (joins rs).
  Proof. unfold NL. rewrite next_world. auto. Qed.
  Lemma WL_next cur rs x : In x (WL (nlog cur rs)) <->
    (In x (WL cur) /\ ~ In x (removals rs)) \/ NL cur <= x < NL cur + zlen (joins rs).
  Proof. clear next.
    unfold WL. rewrite next_world. unfold resized. simpl. rewrite in_app_iff, zfrom_in, filter_In, negb_true_iff, zin_not.
    unfold NL. tauto.
  Qed.
  Lemma nil_reqs rs : joins rs = [] -> removals rs = [] -> rs = [].
  Proof. destruct rs as [|[fd|l] rs]; simpl; intros; auto; discriminate. Qed.

  Hypothesis Hn0 : 0 <= n0.
  Lemma WL_bound log x : In x (WL log) -> 0 <= x < NL log.
  Proof. apply world_bound. auto. Qed.
  Lemma NL_nonneg log : 0 <= NL log.
  Proof. apply (world_sorted n0 log Hn0). Qed.
  Lemma WL_filter log k : NL log <= k -> filter (fun x => zin x (WL log)) (zcount k) = WL log.
  Proof. clear next.
    intros H. destruct (world_sorted n0 log Hn0) as (Hk & E). cbv zeta in *. fold (WL log) (NL log) in *.
    replace k with (NL log + (k - NL log)) by lia. rewrite zcount_plus by lia. rewrite filter_app.
    rewrite <- E. rewrite filter_false; [apply app_nil_r|]. intros x Hx. apply zfrom_in in Hx.
    apply zin_not. intros H2. apply WL_bound in H2. lia.
  Qed.

  (* a member handles the commands of a resize *)
  Lemma drain_old cur rs P l d ids bs :
    Entered cur P l d -> In l (WL cur) -> l <> 0 -> requests_fine (WL cur) rs -> NL cur + zlen (joins rs) <= max_peers ->
    NoDup ids -> (forall x, In x ids <-> NL cur <= x < NL cur + zlen (joins rs)) ->
    NoDup bs -> (forall x, In x bs <-> In x (removals rs)) ->
    exists d', drain (map MNewId ids ++ map MBackedout bs ++ [MGetready]) d [] = Ok (d', [MOk]) /\ RoundOld cur rs P l d'.
  Proof.
    intros [E1 E2 E3 E4 E5 E6 E7 E8 E9] Hl Hl0 (F1 & F2 & F3) Hmp N1 I1 N2 I2.
    pose proof (WL_bound _ _ Hl) as Bl. pose proof (zlen_nonneg (joins rs)) as Hj.
    destruct (drain_ids true (map MBackedout bs ++ [MGetready]) ids d []) as (d1 & D1 & S1 & St1 & Pe1 & Lo1 & Pn1 & Mx1 & Mx2 & Mx3); auto.
    { lia. }
    { intros x Hx. apply I1 in Hx. split; [lia|split; [lia|]]. apply E6. lia. }
    assert (Mx : d_maxid d1 = NL cur + zlen (joins rs) - 1).
    { destruct (Z.eq_dec (zlen (joins rs)) 0) as [Z0|Z0].
      - destruct Mx3 as [Mx3|Mx3]; [lia|]. apply I1 in Mx3. lia.
      - assert (In (NL cur + zlen (joins rs) - 1) ids) by (apply I1; lia). apply Mx2 in H.
        destruct Mx3 as [Mx3|Mx3]; [lia|]. apply I1 in Mx3. lia. }
    destruct S1 as (S1a & S1b & S1c & S1d).
    destruct (drain_backs [MGetready] bs d1 []) as (d2 & D2 & S2 & St2 & Pe2 & Lo2 & Pn2 & Mxx); auto.
    { rewrite St1, E2. right; left; auto. }
    { intros x Hx. apply I2 in Hx. destruct (F2 x Hx) as (Hw & H0). pose proof (WL_bound _ _ Hw). split; [lia|].
      rewrite Pe1. replace (zin x ids) with false by (symmetry; apply zin_not; rewrite I1; lia).
      destruct (Z.eq_dec x l) as [->|Hne]; [left; auto|right; auto]. }
    destruct S2 as (S2a & S2b & S2c & S2d).
    assert (Zb : forall x, zin x bs = zin x (removals rs)).
    { intros x. destruct (zin x (removals rs)) eqn:E; [apply zin_In, I2, zin_In; auto|].
      apply zin_not. rewrite I2. apply zin_not. auto. }
    assert (St3 : d_st d2 = if zin l (removals rs) then PsInResizeRemove else PsInResize).
    { rewrite St2, S1a, E1, Zb, St1, E2. auto. }
    set (fs := if zin l (removals rs) then PsReadyRemove else PsReady).
    exists (set_peer (set_st d2 fs) (d_lid d2) fs).
    split.
    { change (idmsg true) with MNewId in D1. rewrite D1, D2. cbn [drain node_cmd obind]. unfold got_getready. rewrite St3. unfold fs.
      destruct (zin l (removals rs)); reflexivity. }
    assert (L2 : d_lid d2 = l) by congruence.
    constructor; simpl.
    - auto.
    - auto.
    - destruct E3 as (i & Ei & R). exists i. rewrite S2d, S1d. auto.
    - congruence.
    - congruence.
    - intros x Hx. rewrite Lo2, Lo1. replace (zin x ids) with false by (symmetry; apply zin_not; rewrite I1; lia).
      simpl. apply E6. lia.
    - rewrite L2, setz_eq. auto.
    - intros x Hx Hne. rewrite L2, setz_ne by auto. rewrite Pe2, Zb. destruct (zin x (removals rs)); auto.
      rewrite Pe1. pose proof (WL_bound _ _ Hx). replace (zin x ids) with false by (symmetry; apply zin_not; rewrite I1; lia). auto.
    - intros x Hx. rewrite L2, setz_ne by lia. rewrite Pe2, Zb.
      replace (zin x (removals rs)) with false.
      2:{ symmetry. apply zin_not. intros H. apply F2 in H. destruct H as (H & _). apply WL_bound in H. lia. }
      rewrite Pe1. replace (zin x ids) with true by (symmetry; apply zin_In; apply I1; auto). auto.
    - intros x Hx Hnw. rewrite L2, setz_ne by (intros ->; auto). rewrite Pe2, Zb.
      replace (zin x (removals rs)) with false.
      2:{ symmetry. apply zin_not. intros H. apply F2 in H. tauto. }
      rewrite Pe1. replace (zin x ids) with false by (symmetry; apply zin_not; rewrite I1; lia). auto.
  Qed.

  (* a joining process handles the commands of a resize *)
  Lemma drain_new cur rs l olds ids bs :
    NL cur <= l < NL cur + zlen (joins rs) -> In 0 (WL cur) -> requests_fine (WL cur) rs -> NL cur + zlen (joins rs) <= max_peers ->
    NoDup olds -> (forall x, In x olds <-> In x (WL cur)) ->
    NoDup ids -> (forall x, In x ids <-> NL cur <= x < NL cur + zlen (joins rs) /\ x <> l) ->
    NoDup bs -> (forall x, In x bs <-> In x (removals rs)) ->
    exists d', drain (MId l :: map MId olds ++ map MNewId ids ++ map MBackedout bs ++ [MGetready]) newcomer [] = Ok (d', [MOk]) /\
      RoundNew cur rs l d'.
  Proof. clear next.
    intros Hl H00 (F1 & F2 & F3) Hmp N0 I0 N1 I1 N2 I2.
    pose proof (zlen_nonneg (joins rs)) as Hj. pose proof (NL_nonneg cur) as Hk.
    set (d0 := mkNode l PsRegAccepted (setz (d_peer newcomer) l PsRegAccepted) (setz (fun _ => false) l true) l 0 (-1) (-1) None).
    assert (G0 : node_cmd (MId l) newcomer = Ok (d0, [])).
    { simpl. unfold got_id, cassert. replace ((0 <=? l) && (l <? max_peers)) with true by lia. simpl.
      unfold d0. destruct (-1 <? l) eqn:El; [auto|lia]. }
    assert (Hd0 : d_lid d0 = l /\ d_st d0 = PsRegAccepted /\ d_maxid d0 = l /\ d_peers d0 = 0) by (unfold d0; simpl; auto).
    destruct Hd0 as (A1 & A2 & A3 & A4).
    assert (A5 : forall x, x <> l -> d_loc d0 x = false) by (intros x Hx; unfold d0; simpl; apply setz_ne; auto).
    destruct (drain_ids false (map MNewId ids ++ map MBackedout bs ++ [MGetready]) olds d0 []) as (da & Da & Sa & Sta & Pea & Loa & Pna & Mxa1 & Mxa2 & Mxa3); auto.
    { lia. }
    { intros x Hx. apply I0 in Hx. apply WL_bound in Hx. split; [lia|split; [lia|]]. apply A5. lia. }
    destruct Sa as (Sa1 & Sa2 & Sa3 & Sa4).
    destruct (drain_ids true (map MBackedout bs ++ [MGetready]) ids da []) as (d1 & D1 & S1 & St1 & Pe1 & Lo1 & Pn1 & Mx1 & Mx2 & Mx3); auto.
    { lia. }
    { intros x Hx. apply I1 in Hx. split; [lia|split; [lia|]]. rewrite Loa, A5 by lia.
      replace (zin x olds) with false; auto. symmetry. apply zin_not. rewrite I0. intros H. apply WL_bound in H. lia. }
    assert (Mx : d_maxid d1 = NL cur + zlen (joins rs) - 1).
    { assert (d_maxid da = l).
      { destruct Mxa3 as [M|M]; [congruence|]. apply I0 in M. apply WL_bound in M. lia. }
      destruct (Z.eq_dec l (NL cur + zlen (joins rs) - 1)) as [Z0|Z0].
      - destruct Mx3 as [Mx3|Mx3]; [lia|]. apply I1 in Mx3. lia.
      - assert (In (NL cur + zlen (joins rs) - 1) ids) as H1 by (apply I1; lia). apply Mx2 in H1.
        destruct Mx3 as [Mx3|Mx3]; [lia|]. apply I1 in Mx3. lia. }
    destruct S1 as (S1a & S1b & S1c & S1d).
    assert (Zo : forall x, In x (WL cur) -> zin x olds = true) by (intros x Hx; apply zin_In, I0; auto).
    assert (Zo2 : forall x, ~ In x (WL cur) -> zin x olds = false) by (intros x Hx; apply zin_not; rewrite I0; auto).
    destruct (drain_backs [MGetready] bs d1 []) as (d2 & D2 & S2 & St2 & Pe2 & Lo2 & Pn2 & Mxx); auto.
    { rewrite St1, Sta, A2. left; auto. }
    { intros x Hx. apply I2 in Hx. destruct (F2 x Hx) as (Hw & H0). pose proof (WL_bound _ _ Hw). split; [lia|].
      rewrite Pe1. replace (zin x ids) with false by (symmetry; apply zin_not; rewrite I1; lia).
      rewrite Pea, Zo by auto. left; auto. }
    destruct S2 as (S2a & S2b & S2c & S2d).
    assert (Zb : forall x, zin x bs = zin x (removals rs)).
    { intros x. destruct (zin x (removals rs)) eqn:E; [apply zin_In, I2, zin_In; auto|].
      apply zin_not. rewrite I2. apply zin_not. auto. }
    assert (Znl : forall x, NL cur <= x -> zin x (removals rs) = false).
    { intros x Hx. apply zin_not. intros H. apply F2 in H. destruct H as (H & _). apply WL_bound in H. lia. }
    assert (St3 : d_st d2 = PsRegAccepted).
    { rewrite St2, S1a, Sa1, A1, Zb, St1, Sta, A2. rewrite Znl by lia. auto. }
    assert (L2 : d_lid d2 = l) by congruence.
    exists (set_peer (set_st d2 PsReady) (d_lid d2) PsReady).
    split.
    { cbn [drain app]. rewrite G0. cbn [obind fst snd app].
      change (idmsg true) with MNewId in D1. change (idmsg false) with MId in Da.
      rewrite Da, D1, D2. cbn [drain node_cmd obind]. unfold got_getready. rewrite St3. simpl; auto. }
    constructor; simpl.
    - auto.
    - auto.
    - rewrite S2d, S1d, Sa4. auto.
    - rewrite S2b, S1b, Sa2. auto.
    - congruence.
    - rewrite Pn2, Pn1, Pna, A4. 
      assert (zlen olds = zlen (WL cur)).
      { unfold zlen. f_equal. apply Permutation.Permutation_length. apply Permutation.NoDup_Permutation; auto. apply world_nodup; auto. }
      assert (zlen (l :: ids) = zlen (zfrom (NL cur) (zlen (joins rs)))).
      { unfold zlen at 1 2. f_equal. apply Permutation.Permutation_length. apply Permutation.NoDup_Permutation.
        - constructor; auto. rewrite I1. tauto.
        - unfold zfrom. apply FinFun.Injective_map_NoDup; [intros a b; lia|apply zcount_nodup].
        - intros x. rewrite zfrom_in. simpl. rewrite I1. destruct (Z.eq_dec x l) as [->|]; intuition lia. }
      rewrite zlen_cons, zfrom_len in H0. lia.
    - intros x Hx. rewrite Lo2, Lo1. replace (zin x ids) with false by (symmetry; apply zin_not; rewrite I1; lia).
      rewrite Loa, A5 by lia. rewrite Zo2; auto. intros H. apply WL_bound in H. lia.
    - rewrite L2, setz_eq. auto.
    - intros x Hx. pose proof (WL_bound _ _ Hx). rewrite L2, setz_ne by lia. rewrite Pe2, Zb. destruct (zin x (removals rs)); auto.
      rewrite Pe1. replace (zin x ids) with false by (symmetry; apply zin_not; rewrite I1; lia). rewrite Pea, Zo; auto.
    - intros x Hx Hne. rewrite L2, setz_ne by lia. rewrite Pe2, Zb, Znl by lia.
      rewrite Pe1. replace (zin x ids) with true; auto. symmetry; apply zin_In; apply I1; auto.
    - intros x Hx Hnw. rewrite L2, setz_ne by lia. rewrite Pe2, Zb.
      replace (zin x (removals rs)) with false.
      2:{ symmetry. apply zin_not. intros H. apply F2 in H. tauto. }
      rewrite Pe1. replace (zin x ids) with false by (symmetry; apply zin_not; rewrite I1; lia).
      rewrite Pea, Zo2 by auto. unfold d0. simpl. rewrite setz_ne by lia. unfold newcomer. simpl.
      destruct (Z.eqb_spec x 0) as [e|e]; auto. exfalso. rewrite e in Hnw. auto.
  Qed.
End States.
