(* The group created by a resize: in the members, the removed and the joining processes *)
From Coq Require Import ZArith List Bool Lia ZifyBool ZifyNat.
From Verif Require Import Base Model_Space Model_RangeList Model_Partitioner Model_Resize Spec_Resize Proof_Resize1 Proof_Resize2.
Import ListNotations.
Open Scope Z_scope.

Lemma nth_middle_filter (f : Z -> bool) pre x post : f x = true ->
  nth_error (filter f (pre ++ x :: post)) (Z.to_nat (zlen (filter f pre))) = Some x.
Proof.
  intros H. rewrite filter_app. simpl. rewrite H. unfold zlen. rewrite Nat2Z.id.
  rewrite nth_error_app2 by lia. rewrite Nat.sub_diag. auto.
Qed.
Lemma split_zcount max pre x post : zcount max = pre ++ x :: post -> 0 <= x < max /\ ~ In x pre /\ zlen pre < max.
Proof.
  intros E. split; [apply zcount_in; rewrite E; apply in_elt|].
  pose proof (zcount_nodup max) as N. rewrite E in N. apply NoDup_remove_2 in N. rewrite in_app_iff in N. split; [tauto|].
  pose proof (zcount_len max) as L. rewrite E, zlen_app, zlen_cons in L. pose proof (zlen_nonneg post). pose proof (zlen_nonneg pre). lia.
Qed.

Section Fold.
  Variables (fo fn : Z -> bool) (w : wgrp) (max : Z).
  Definition cop (b : gb) (x : Z) : outcome gb :=
    match fo x, fn x with
    | true, true => gb_keep w max x PsReady b
    | false, true => gb_add max x b
    | true, false => gb_drop w max x b
    | false, false => Ok b
    end.
  Lemma group_fold f peer junk :
    group_locs (w_size w) (w_mem w) = filter fo (zcount max) -> w_size w <= w_max w ->
    (forall b x, 0 <= x < max -> b_peer b x = peer x -> f b x = cop b x) ->
    exists b, ofold f (zcount max) (mkGb 0 0 junk peer) = Ok b /\
      Binv fo fn max (zcount max) (b_i1 b) (b_i2 b) (b_mem b) /\
      (forall x, b_peer b x = if (0 <=? x) && (x <? max) && (fo x || fn x) then (if fn x then PsReady else PsReadyRemove) else peer x).
  Proof.
    intros HW Hm Hf.
    destruct (ofold_total f (fun pre b => Binv fo fn max pre (b_i1 b) (b_i2 b) (b_mem b) /\
       (forall x, b_peer b x = if zin x pre && (fo x || fn x) then (if fn x then PsReady else PsReadyRemove) else peer x))
       (zcount max) (mkGb 0 0 junk peer)) as (b & E & B & Pe).
    - simpl. split; [apply binv_nil|auto].
    - intros pre x post b El (B & Pe). destruct (split_zcount _ _ _ _ El) as (Hx & Hnin & Hlen).
      assert (Zx : zin x pre = false) by (apply zin_not; auto).
      assert (Ep : b_peer b x = peer x) by (rewrite Pe, Zx; auto).
      rewrite (Hf b x Hx Ep). unfold cop.
      pose proof (bi_1 _ _ _ _ _ _ _ B) as E1. pose proof (bi_2 _ _ _ _ _ _ _ B) as E2.
      pose proof (filter_zlen_le fo pre). pose proof (filter_zlen_le fn pre).
      pose proof (zlen_nonneg (filter fo pre)). pose proof (zlen_nonneg (filter fn pre)).
      assert (Hget : fo x = true -> gget (w_max w) (w_mem w) (b_i1 b) = Ok x).
      { intros Fx. pose proof (nth_middle_filter fo pre x post Fx) as N. rewrite <- El, <- HW, <- E1 in N.
        assert (0 <= b_i1 b < w_size w).
        { pose proof (nth_len _ _ _ N) as L. pose proof (group_locs_len (w_size w) (w_mem w)) as G. unfold zlen in *. lia. }
        rewrite group_locs_nth in N by lia. injection N as N.
        unfold gget. replace ((0 <=? b_i1 b) && (b_i1 b <? 5 * w_max w)) with true by lia. congruence. }
      assert (Hpe : forall s y, s = (if fn x then PsReady else PsReadyRemove) -> fo x || fn x = true ->
         setz (b_peer b) x s y = if zin y (pre ++ [x]) && (fo y || fn y) then (if fn y then PsReady else PsReadyRemove) else peer y).
      { intros s y Es Fx. unfold setz. unfold zin. rewrite existsb_app. simpl. rewrite orb_false_r. fold (zin y pre).
        destruct (Z.eqb_spec y x) as [->|Hne].
        - rewrite Zx, Fx. simpl. auto.
        - rewrite orb_false_r. apply Pe. }
      destruct (fo x) eqn:Fo, (fn x) eqn:Fn.
      + unfold gb_keep. rewrite Hget by auto. cbn [obind]. rewrite Z.eqb_refl. cbn [cassert].
        unfold gput. replace ((0 <=? b_i2 b) && (b_i2 b <? 5 * max)) with true by lia. cbn [obind].
        replace ((0 <=? 2 * max + b_i2 b) && (2 * max + b_i2 b <? 5 * max)) with true by lia. cbn [obind].
        replace ((0 <=? max + b_i1 b) && (max + b_i1 b <? 5 * max)) with true by lia. cbn [obind].
        eexists. split; [reflexivity|]. simpl. split; [apply binv_keep; auto; lia|]. intros y. apply Hpe; auto.
      + unfold gb_drop. rewrite Hget by auto. cbn [obind]. rewrite Z.eqb_refl. cbn [cassert].
        unfold gput. replace ((0 <=? max + b_i1 b) && (max + b_i1 b <? 5 * max)) with true by lia. cbn [obind].
        eexists. split; [reflexivity|]. simpl. split; [apply binv_drop; auto; lia|]. intros y. apply Hpe; auto.
      + unfold gb_add.
        unfold gput. replace ((0 <=? b_i2 b) && (b_i2 b <? 5 * max)) with true by lia. cbn [obind].
        replace ((0 <=? 2 * max + b_i2 b) && (2 * max + b_i2 b <? 5 * max)) with true by lia. cbn [obind].
        eexists. split; [reflexivity|]. simpl. split; [apply binv_add; auto; lia|]. intros y. apply Hpe; auto.
      + exists b. split; auto. split; [apply binv_skip; auto|]. intros y. rewrite Pe.
        unfold zin. rewrite existsb_app. simpl. rewrite orb_false_r.
        destruct (Z.eqb_spec y x) as [->|Hne]; [rewrite Fo, Fn; rewrite !andb_false_r; auto|rewrite orb_false_r; auto].
    - exists b. split; auto. split; auto. intros x. rewrite Pe.
      replace (zin x (zcount max)) with ((0 <=? x) && (x <? max)); auto.
      destruct (zin x (zcount max)) eqn:E0.
      + apply zin_In in E0. apply zcount_in in E0. lia.
      + apply zin_not in E0. rewrite zcount_in in E0. lia.
  Qed.
End Fold.

Section Leave.
  Variables (next junk : Z -> Z) (n0 : Z).
  Hypothesis Hn0 : 0 <= n0.
  Notation WL := (WL n0). Notation NL := (NL n0).

  (* the instance after a resize in a process of the old world *)
  Lemma new_world_ok cur rs l i b :
    rs <> [] -> In l (WL cur) -> world_ok n0 cur l i -> i_epoch i = zlen cur ->
    let log := nlog cur rs in
    Binv (fun x => zin x (WL cur)) (fun x => zin x (WL log)) (NL log) (zcount (NL log)) (b_i1 b) (b_i2 b) (b_mem b) ->
    w_size (i_world i) = b_i1 b /\
    exists i', new_world (NL log) (b_i2 b) (b_mem b) (NL log) i = Ok i' /\ i_epoch i' = zlen log /\ i_phase i' = i_phase i /\
      world_ok n0 log l i' /\ w_parent (i_world i') <> None /\ w_myid (i_world i') = index_of (WL log) l.
  Proof.
    intros Hrs Hl [O1 O2 O3 O4 O5 O6 O7] He log B. cbv zeta in O7.
    assert (Elog : log = cur ++ [rs]) by (unfold log, nlog; destruct rs; [easy|auto]).
    assert (Ll : zlen log = zlen cur + 1) by (rewrite Elog, zlen_app; reflexivity).
    rewrite He, world_at_end in *. fold (WL cur) in *.
    pose proof (zlen_nonneg cur) as Hc.
    assert (Hk : NL cur <= NL log) by (unfold log; rewrite NL_next; pose proof (zlen_nonneg (joins rs)); lia).
    destruct B as [B1 B2 B3 B4 B5].
    rewrite (WL_filter n0 Hn0 cur) in * by lia. rewrite (WL_filter n0 Hn0 log) in * by lia.
    pose proof (zlen_nonneg (WL log)).
    split; [congruence|].
    destruct (index_in _ _ Hl) as (Bi & Ni).
    assert (Hle : zlen (WL cur) <= NL log).
    { rewrite <- (WL_filter n0 Hn0 cur (NL log)) by auto.
      pose proof (filter_zlen_le (fun x => zin x (WL cur)) (zcount (NL log))) as G. rewrite zcount_len in G.
      pose proof (NL_nonneg n0 Hn0 log). lia. }
    assert (Hle2 : zlen (WL log) <= NL log).
    { rewrite <- (WL_filter n0 Hn0 log (NL log)) by lia.
      pose proof (filter_zlen_le (fun x => zin x (WL log)) (zcount (NL log))) as G. rewrite zcount_len in G.
      pose proof (NL_nonneg n0 Hn0 log). lia. }
    unfold new_world, gget. rewrite O5.
    replace ((0 <=? NL log + index_of (WL cur) l) && (NL log + index_of (WL cur) l <? 5 * NL log)) with true by lia.
    cbn [obind]. eexists. split; [reflexivity|]. cbn [i_epoch i_phase i_world w_parent w_myid].
    assert (My : b_mem b (NL log + index_of (WL cur) l) = index_of (WL log) l) by (apply B5; auto; lia).
    repeat split; auto; try lia; try easy; cbn [i_epoch i_world i_locations w_size w_mem w_max w_myid w_parent]; try lia.
    - rewrite He, <- Ll, world_at_end. apply group_locs_eq; [exact B2|]. auto.
    - rewrite He, <- Ll, world_at_end. auto.
    - rewrite He, <- Ll, world_at_end. auto.
    - rewrite He, <- Ll, locations_at_end. auto.
    - replace (i_epoch i + 1 - 1) with (zlen cur) by lia. rewrite Elog, world_at_grow, world_at_end by lia.
      cbn [p_size]. exact O3.
    - replace (i_epoch i + 1 - 1) with (zlen cur) by lia. rewrite Elog, world_at_grow, world_at_end by lia.
      cbn [p_size p_mem]. auto.
    - replace (i_epoch i + 1 - 1) with (zlen cur) by lia. rewrite Elog, world_at_grow, world_at_end by lia.
      cbn [p_myid]. auto.
    - intros r x N Hr. replace (i_epoch i + 1 - 1) with (zlen cur) by lia.
      rewrite He, <- Ll, world_at_end in N. rewrite (B4 r x Hr N). rewrite Elog, world_at_grow, world_at_end by lia. auto.
    - intros r x N Hr. replace (i_epoch i + 1 - 1) with (zlen cur) in N by lia.
      rewrite Elog, world_at_grow, world_at_end in N by lia.
      rewrite (B5 r x Hr N). rewrite He, <- Ll, world_at_end. auto.
  Qed.

  (* the change count *)
  Definition changed_st (s : pstate) : bool := match s with PsNoConnect | PsInResizeRemove | PsReadyRemove => true | _ => false end.
  Definition count_ok (s : pstate) : bool := match s with PsDead | PsReady => true | s => changed_st s end.
  Lemma count_fold d l c : (forall x, In x l -> count_ok (d_peer d x) = true) ->
    ofold (count_step d) l c = Ok (c + zlen (filter (fun x => changed_st (d_peer d x)) l)).
  Proof.
    revert c; induction l; intros c H; simpl.
    - rewrite zlen_nil. f_equal. lia.
    - pose proof (H a (or_introl eq_refl)) as Ha. unfold count_step at 1.
      destruct (d_peer d a) eqn:E; try discriminate; cbn [obind changed_st]; rewrite IHl by (intros; apply H; right; auto);
      rewrite ?zlen_cons; f_equal; lia.
  Qed.
  Lemma filter_nil_iff {A} (f : A -> bool) l : zlen (filter f l) = 0 <-> forall x, In x l -> f x = false.
  Proof.
    split.
    - intros H x Hx. destruct (f x) eqn:E; auto. exfalso.
      assert (In x (filter f l)) by (apply filter_In; auto). destruct (filter f l); [easy|]. rewrite zlen_cons in H.
      pose proof (zlen_nonneg l0). lia.
    - intros H. rewrite filter_false by auto. reflexivity.
  Qed.

  (* the end of the call in a process of the old world *)
  Lemma leave_old cur rs P l d e :
    RoundOld next n0 cur rs P l d -> In l (WL cur) -> requests_fine (WL cur) rs ->
    let log := nlog cur rs in
    exists d', node_leave junk (got_phase (next P) e d) = Ok d' /\
      (if zin l (removals rs) then Gone n0 log l d' else Settled n0 log (next P) l d').
  Proof.
    intros [R1 R2 R3 R4 R5 R6 R7 R8 R9 R10] Hl (F1 & F2 & F3) log.
    destruct R3 as (i & Ei & Eep & Eph & Hok & Hpar).
    pose proof (zlen_nonneg (joins rs)) as Hj.
    assert (HNL : NL log = NL cur + zlen (joins rs)) by (apply NL_next).
    assert (HWL : forall x, In x (WL log) <-> (In x (WL cur) /\ ~ In x (removals rs)) \/ NL cur <= x < NL log).
    { intros x. unfold log. rewrite WL_next, NL_next. tauto. }
    assert (Hmx : d_maxid d + 1 = NL log) by lia.
    assert (Hown : l <> 0 \/ l = 0) by lia.
    set (d1 := got_phase (next P) e d).
    (* table *)
    assert (T : forall x, 0 <= x < NL log ->
        d_peer d x = if zin x (WL cur) then (if zin x (removals rs) then (if x =? l then PsReadyRemove else PsInResizeRemove) else PsReady)
                     else if NL cur <=? x then PsNoConnect else PsDead).
    { intros x Hx. destruct (zin x (WL cur)) eqn:Ew.
      - apply zin_In in Ew. destruct (Z.eqb_spec x l) as [->|Hne]; [rewrite R7|rewrite R8 by auto]; destruct (zin _ (removals rs)); auto.
      - apply zin_not in Ew. destruct (NL cur <=? x) eqn:Ek; [apply R9; lia|apply R10; auto; lia]. }
    unfold node_leave. change (d_inst d1) with (d_inst d). rewrite Ei.
    change (d_maxid d1) with (d_maxid d). rewrite Hmx.
    rewrite (count_fold d1).
    2:{ intros x Hx. apply zcount_in in Hx. change (d_peer d1) with (d_peer d). rewrite T by auto.
        destruct (zin x (WL cur)), (zin x (removals rs)), (x =? l), (NL cur <=? x); reflexivity. }
    change (d_peer d1) with (d_peer d). change (d_lid d1) with (d_lid d). change (d_st d1) with (d_st d).
    cbn [obind]. rewrite Z.add_0_l.
    destruct (zlen (filter (fun x => changed_st (d_peer d x)) (zcount (NL log))) =? 0) eqn:Ec.
    - (* no change *)
      assert (Ec' : zlen (filter (fun x => changed_st (d_peer d x)) (zcount (NL log))) = 0) by lia.
      rewrite filter_nil_iff in Ec'.
      assert (Hrs : rs = []).
      { apply nil_reqs.
        - assert (zlen (joins rs) = 0); [|destruct (joins rs); [auto|rewrite zlen_cons in H; pose proof (zlen_nonneg l0); lia]].
          destruct (Z.eq_dec (zlen (joins rs)) 0) as [|Hne]; auto. exfalso.
          assert (Hc := Ec' (NL cur)). rewrite zcount_in in Hc. pose proof (NL_nonneg n0 Hn0 cur).
          rewrite T in Hc by lia. replace (zin (NL cur) (WL cur)) with false in Hc.
          2:{ symmetry. apply zin_not. intros H2. apply (WL_bound n0 Hn0) in H2. lia. }
          replace (NL cur <=? NL cur) with true in Hc by lia. simpl in Hc. discriminate Hc. lia.
        - destruct (removals rs) as [|x rm] eqn:Er; auto. exfalso.
          destruct (F2 x (or_introl eq_refl)) as (Hw & _). pose proof (WL_bound n0 Hn0 _ _ Hw).
          assert (Hc := Ec' x). rewrite zcount_in in Hc. rewrite T in Hc by lia.
          replace (zin x (WL cur)) with true in Hc by (symmetry; apply zin_In; auto).
          replace (zin x (x :: rm)) with true in Hc by (symmetry; apply zin_In; left; auto).
          destruct (x =? l); discriminate Hc; lia. }
      subst rs. simpl in R2, R7. rewrite R1, R7, R2. exists d1. split; auto. simpl.
      unfold log in *. simpl in *.
      constructor; unfold d1; simpl; auto.
      + exists i. split; auto.
      + lia.
      + intros x Hx. apply R6. lia.
      + intros x Hx. destruct (Z.eq_dec x l) as [->|]; auto.
    - (* change *)
      assert (Hrs : rs <> []).
      { intros ->. simpl in *.
        assert (zlen (filter (fun x => changed_st (d_peer d x)) (zcount (NL log))) = 0); [|lia].
        apply filter_nil_iff. intros x Hx. apply zcount_in in Hx. rewrite T by auto. simpl.
        destruct (zin x (WL cur)) eqn:Ew; auto. destruct (NL cur <=? x) eqn:Ek; auto. unfold zlen in HNL. simpl in HNL. lia. }
      assert (Zl : forall x, 0 <= x < NL log -> zin x (WL log) = (zin x (WL cur) && negb (zin x (removals rs))) || (NL cur <=? x)).
      { intros x Hx. destruct (zin x (WL log)) eqn:E1.
        - apply zin_In, HWL in E1. destruct E1 as [(E1 & E2)|E1]; [|lia].
          apply zin_In in E1. apply zin_not in E2. rewrite E1, E2. auto.
        - apply zin_not in E1. rewrite HWL in E1. symmetry. apply orb_false_iff. split; [|lia].
          destruct (zin x (WL cur)) eqn:E2; auto. destruct (zin x (removals rs)) eqn:E3; auto. exfalso. apply E1. left.
          apply zin_In in E2. apply zin_not in E3. auto. }
      destruct (group_fold (fun x => zin x (WL cur)) (fun x => zin x (WL log)) (i_world i) (NL log)
                 (leave_step (i_world i) (NL log)) (d_peer d) junk) as (b & Eb & Bb & Pb).
      { rewrite (WL_filter n0 Hn0 cur) by lia. rewrite (wo_locs _ _ _ _ Hok), Eep, world_at_end. auto. }
      { apply Hok. }
      { intros b x Hx Ep. unfold leave_step, cop. rewrite Ep, T, Zl by auto.
        destruct (zin x (WL cur)) eqn:E1.
        - assert (x < NL cur) by (apply zin_In in E1; apply (WL_bound n0 Hn0) in E1; lia).
          replace (NL cur <=? x) with false by lia. rewrite orb_false_r. simpl.
          destruct (zin x (removals rs)) eqn:E2; simpl; auto. destruct (x =? l); auto.
        - simpl. destruct (NL cur <=? x) eqn:E3; auto. }
      rewrite Eb. cbn [obind].
      destruct (new_world_ok cur rs l i b Hrs Hl Hok Eep Bb) as (Esz & i' & Ei' & Eep' & Eph' & Hok' & Hp' & Hmy').
      fold log in Ei', Eep', Hok', Hmy'. rewrite Esz, Z.eqb_refl. cbn [cassert]. rewrite Ei'. cbn [obind].
      eexists. split; [reflexivity|].
      assert (Pl : b_peer b l = if zin l (removals rs) then PsReadyRemove else PsReady).
      { rewrite Pb. pose proof (WL_bound n0 Hn0 _ _ Hl). replace ((0 <=? l) && (l <? NL log)) with true by lia.
        rewrite Zl by lia. replace (zin l (WL cur)) with true by (symmetry; apply zin_In; auto).
        replace (NL cur <=? l) with false by lia. rewrite orb_false_r. simpl. destruct (zin l (removals rs)); auto. }
      destruct (zin l (removals rs)) eqn:Erm.
      + constructor; simpl; auto.
        * rewrite R1. auto.
        * exists i'. split; auto. split; auto. rewrite Hmy'. apply index_notin. rewrite HWL.
          apply zin_In in Erm. pose proof (WL_bound n0 Hn0 _ _ Hl). intros [[_ H1]|H1]; [auto|lia].
      + constructor; simpl; auto.
        * rewrite R1. auto.
        * exists i'. split; auto. split; auto. split; [congruence|]. split; auto. intros Hpn. congruence.
        * lia.
        * intros x Hx. apply R6. lia.
        * intros x Hx. rewrite Pb. pose proof (WL_bound n0 Hn0 _ _ Hx). apply zin_In in Hx. rewrite Hx, orb_true_r.
          replace ((0 <=? x) && (x <? NL log)) with true by lia. auto.
        * intros x Hx Hnw. rewrite Pb. apply zin_not in Hnw. rewrite Hnw. replace ((0 <=? x) && (x <? NL log)) with true by lia.
          rewrite orb_false_r. simpl. destruct (zin x (WL cur)) eqn:E1; auto.
          rewrite T, E1 by auto. rewrite Zl in Hnw by auto. destruct (NL cur <=? x) eqn:E3; auto.
          rewrite orb_true_r in Hnw. discriminate.
  Qed.
End Leave.
