(* The groups a joining process creates *)
From Coq Require Import ZArith List Bool Lia ZifyBool ZifyNat Permutation.
From Verif Require Import Base Model_Space Model_RangeList Model_Partitioner Model_Resize Spec_Resize Proof_Resize1 Proof_Resize2 Proof_Resize3.
Import ListNotations.
Open Scope Z_scope.

Definition is_nc (s : pstate) : bool := match s with PsNoConnect => true | _ => false end.
Definition is_old (s : pstate) : bool := match s with PsInResize | PsInResizeRemove => true | _ => false end.
Definition init_ok (s : pstate) : bool := is_nc s || is_old s || is_dead s.

Lemma init_count_fold peer l : forall a o r, (forall x, In x l -> init_ok (peer x) = true) ->
  ofold (init_count peer) l (a, o, r) =
  Ok (a + zlen (filter (fun x => is_nc (peer x)) l), o + zlen (filter (fun x => is_old (peer x)) l),
      r + zlen (filter (fun x => is_rem (peer x)) l)).
Proof.
  induction l; intros a0 o r H; simpl.
  - rewrite zlen_nil, !Z.add_0_r. auto.
  - pose proof (H a (or_introl eq_refl)) as Ha.
    assert (IH := fun a0 o r => IHl a0 o r (fun x Hx => H x (or_intror Hx))).
    destruct (peer a) eqn:E; try discriminate; cbn [obind is_nc is_old is_rem]; rewrite IH, ?zlen_cons;
      do 2 f_equal; try lia; f_equal; lia.
Qed.

Lemma zlen_perm {A} (a b : list A) : Permutation a b -> zlen a = zlen b.
Proof. intros H. unfold zlen. f_equal. apply Permutation_length. auto. Qed.

Lemma filter_negb_len {A} (f : A -> bool) l : zlen (filter (fun x => negb (f x)) l) = zlen l - zlen (filter f l).
Proof. induction l; simpl; auto. destruct (f a); simpl; rewrite ?zlen_cons; lia. Qed.

Section InitFold.
  Variables (fo fn : Z -> bool) (l max wmax pmax : Z) (junk : Z -> Z) (peer : Z -> pstate).
  Hypothesis Hp : pmax = zlen (filter fo (zcount max)).
  Hypothesis Hw : wmax = zlen (filter fn (zcount max)).
  Hypothesis Hle : pmax <= wmax.
  Hypothesis Hc : forall x, 0 <= x < max -> peer x =
    match fo x, fn x with true, true => PsInResize | true, false => PsInResizeRemove | false, true => PsNoConnect | false, false => PsDead end.
  Hypothesis Hl : 0 <= l < max.
  Hypothesis Hfl : fn l = true.

  Lemma prefix_lt (f : Z -> bool) pre x post : zcount max = pre ++ x :: post -> f x = true ->
    zlen (filter f pre) < zlen (filter f (zcount max)).
  Proof. intros -> H. rewrite filter_app. simpl. rewrite H, zlen_app, zlen_cons. pose proof (zlen_nonneg (filter f post)). lia. Qed.
  Lemma prefix_le (f : Z -> bool) pre x post : zcount max = pre ++ x :: post ->
    zlen (filter f pre) <= zlen (filter f (zcount max)).
  Proof. intros ->. rewrite filter_app, zlen_app. pose proof (zlen_nonneg (filter f (x :: post))). lia. Qed.

  Lemma init_fold :
    exists b, ofold (init_step l pmax wmax) (zcount max) (mkNb 0 0 junk junk (junk 0) peer) = Ok b /\
      Binv fo fn wmax (zcount max) (nb_p b) (nb_w b) (nb_wmem b) /\
      (forall r x, 0 <= r -> nth_error (filter fo (zcount max)) (Z.to_nat r) = Some x -> nb_pmem b r = x) /\
      nb_my b = index_of (filter fn (zcount max)) l /\
      (forall x, 0 <= x < max -> nb_peer b x = if fn x then PsReady else if fo x then PsReadyRemove else PsDead).
  Proof.
    destruct (ofold_total (init_step l pmax wmax) (fun pre b =>
      Binv fo fn wmax pre (nb_p b) (nb_w b) (nb_wmem b) /\
      (forall r x, 0 <= r -> nth_error (filter fo pre) (Z.to_nat r) = Some x -> nb_pmem b r = x) /\
      (In l pre -> nb_my b = index_of (filter fn pre) l) /\
      (forall x, 0 <= x < max -> nb_peer b x = if zin x pre then (if fn x then PsReady else if fo x then PsReadyRemove else PsDead) else peer x))
      (zcount max) (mkNb 0 0 junk junk (junk 0) peer)) as (b & E & B & Bp & Bm & Pe).
    - simpl. split; [apply binv_nil|]. split; [intros r x _ H; destruct (Z.to_nat r); discriminate|]. split; [easy|auto].
    - intros pre x post b El (B & Bp & Bm & Pe). destruct (split_zcount _ _ _ _ El) as (Hx & Hnin & Hlen).
      assert (Zx : zin x pre = false) by (apply zin_not; auto).
      assert (Ep : nb_peer b x = peer x) by (rewrite Pe, Zx; auto).
      unfold init_step. rewrite Ep, Hc by auto.
      pose proof (bi_1 _ _ _ _ _ _ _ B) as E1. pose proof (bi_2 _ _ _ _ _ _ _ B) as E2.
      pose proof (zlen_nonneg (filter fo pre)). pose proof (zlen_nonneg (filter fn pre)).
      pose proof (prefix_le fo _ _ _ El) as Lo. pose proof (prefix_le fn _ _ _ El) as Ln.
      rewrite <- Hp in Lo. rewrite <- Hw in Ln.
      assert (Hpe : forall s y, 0 <= y < max -> s = (if fn x then PsReady else PsReadyRemove) -> fo x || fn x = true ->
         setz (nb_peer b) x s y = if zin y (pre ++ [x]) then (if fn y then PsReady else if fo y then PsReadyRemove else PsDead) else peer y).
      { intros s y Hy Es Fx. unfold setz. unfold zin. rewrite existsb_app. simpl. rewrite orb_false_r. fold (zin y pre).
        destruct (Z.eqb_spec y x) as [->|Hne].
        - rewrite orb_true_r, Es. destruct (fn x); auto. destruct (fo x); auto. discriminate.
        - rewrite orb_false_r. apply Pe. auto. }
      assert (Hpm : forall i1, i1 = nb_p b -> fo x = true -> forall r y, 0 <= r ->
         nth_error (filter fo (pre ++ [x])) (Z.to_nat r) = Some y -> setz (nb_pmem b) i1 x r = y).
      { intros i1 -> Fx r y Hr N. rewrite filter_snoc, Fx in N. apply nth_snoc in N. unfold zlen in E1.
        destruct N as [(N & L)|(N & ->)]; [rewrite setz_ne by lia; auto|].
        replace r with (nb_p b) by lia. apply setz_eq. }
      assert (Hpm2 : fo x = false -> forall r y, 0 <= r ->
         nth_error (filter fo (pre ++ [x])) (Z.to_nat r) = Some y -> nb_pmem b r = y).
      { intros Fx r y Hr N. rewrite filter_snoc, Fx in N. auto. }
      assert (Hmy : (fn x = true \/ x <> l) -> In l (pre ++ [x]) -> (if l =? x then nb_w b else nb_my b) = index_of (filter fn (pre ++ [x])) l).
      { intros Fx Hin. rewrite filter_snoc. destruct (Z.eqb_spec l x) as [->|Hne].
        - destruct Fx as [Fx|]; [|lia]. rewrite Fx. rewrite index_snoc_same by (apply notin_filter; auto). auto.
        - apply in_app_iff in Hin. destruct Hin as [Hin|[Hin|[]]]; [|lia].
          destruct (fn x); [rewrite index_snoc_other by lia|]; auto. }
      assert (Hxl : fn x = false -> x <> l) by (intros F ->; congruence).
      destruct (fo x) eqn:Fo, (fn x) eqn:Fn.
      + pose proof (prefix_lt fo _ _ _ El Fo) as Lo'. pose proof (prefix_lt fn _ _ _ El Fn) as Ln'.
        rewrite <- Hp in Lo'. rewrite <- Hw in Ln'.
        unfold gput. replace ((0 <=? nb_p b) && (nb_p b <? 5 * pmax)) with true by lia. cbn [obind].
        replace ((0 <=? nb_w b) && (nb_w b <? 5 * wmax)) with true by lia. cbn [obind].
        replace ((0 <=? 2 * wmax + nb_w b) && (2 * wmax + nb_w b <? 5 * wmax)) with true by lia. cbn [obind].
        replace ((0 <=? wmax + nb_p b) && (wmax + nb_p b <? 5 * wmax)) with true by lia. cbn [obind].
        eexists. split; [reflexivity|]. simpl. split; [apply binv_keep; auto; lia|].
        split; [auto|]. split; [auto|]. intros y Hy. apply Hpe; auto.
      + pose proof (prefix_lt fo _ _ _ El Fo) as Lo'. rewrite <- Hp in Lo'.
        unfold gput. replace ((0 <=? nb_p b) && (nb_p b <? 5 * pmax)) with true by lia. cbn [obind].
        replace ((0 <=? wmax + nb_p b) && (wmax + nb_p b <? 5 * wmax)) with true by lia. cbn [obind].
        eexists. split; [reflexivity|]. simpl. split; [apply binv_drop; auto; lia|].
        split; [auto|]. split; [auto|]. intros y Hy. apply Hpe; auto.
      + pose proof (prefix_lt fn _ _ _ El Fn) as Ln'. rewrite <- Hw in Ln'.
        unfold gput. replace ((0 <=? nb_w b) && (nb_w b <? 5 * wmax)) with true by lia. cbn [obind].
        replace ((0 <=? 2 * wmax + nb_w b) && (2 * wmax + nb_w b <? 5 * wmax)) with true by lia. cbn [obind].
        eexists. split; [reflexivity|]. simpl. split; [apply binv_add; auto; lia|].
        split; [auto|]. split; [auto|]. intros y Hy. apply Hpe; auto.
      + exists b. split; auto. split; [apply binv_skip; auto|]. split; [auto|].
        split.
        * intros Hin. rewrite filter_snoc, Fn. apply Bm. apply in_app_iff in Hin. destruct Hin as [|[Hin|[]]]; auto. exfalso. apply Hxl; auto.
        * intros y Hy. rewrite Pe by auto. unfold zin. rewrite existsb_app. simpl. rewrite orb_false_r. fold (zin y pre).
          destruct (Z.eqb_spec y x) as [->|Hne]; [|rewrite orb_false_r; auto].
          rewrite Zx, orb_true_r, Fn, Fo. rewrite Hc, Fo, Fn by auto. auto.
    - exists b. split; auto. split; auto. split; auto. split; [apply Bm; apply zcount_in; auto|].
      intros x Hx. rewrite Pe by auto. replace (zin x (zcount max)) with true; auto. symmetry. apply zin_In, zcount_in. auto.
  Qed.
End InitFold.

Section Init.
  Variables (junk : Z -> Z) (n0 : Z).
  Hypothesis Hn0 : 0 <= n0.
  Notation WL := (WL n0). Notation NL := (NL n0).

  Lemma removals_len cur rs : requests_fine (WL cur) rs ->
    zlen (filter (fun x => zin x (removals rs)) (WL cur)) = zlen (removals rs).
  Proof.
    intros (F1 & F2 & _). apply zlen_perm. apply NoDup_Permutation; auto.
    - apply NoDup_filter. apply world_nodup. auto.
    - intros x. rewrite filter_In, zin_In. split; [tauto|]. intros H. split; auto. apply F2. auto.
  Qed.
  Lemma WL_len cur rs : requests_fine (WL cur) rs ->
    zlen (WL (nlog cur rs)) = zlen (WL cur) - zlen (removals rs) + zlen (joins rs).
  Proof.
    intros F. rewrite <- (removals_len cur rs F). unfold Proof_Resize2.WL at 1. rewrite next_world. unfold resized. cbn [fst].
    fold (WL cur). rewrite zlen_app, zfrom_len, filter_negb_len. pose proof (zlen_nonneg (joins rs)). lia.
  Qed.

  Lemma init_new cur rs l d p :
    RoundNew n0 cur rs l d -> NL cur <= l < NL cur + zlen (joins rs) -> In 0 (WL cur) -> requests_fine (WL cur) rs ->
    let log := nlog cur rs in
    exists d', node_init junk (got_phase p (zlen log) d) = Ok d' /\ Settled n0 log p l d'.
  Proof.
    intros [R1 R2 R3 R4 R5 R6 R7 R8 R9 R10 R11] Hl H0 HF log. pose proof HF as (F1 & F2 & F3).
    pose proof (zlen_nonneg (joins rs)) as Hj.
    assert (HNL : NL log = NL cur + zlen (joins rs)) by (apply NL_next).
    assert (HWL : forall x, In x (WL log) <-> (In x (WL cur) /\ ~ In x (removals rs)) \/ NL cur <= x < NL log).
    { intros x. unfold log. rewrite WL_next, NL_next. tauto. }
    assert (Hmx : d_maxid d + 1 = NL log) by lia.
    pose proof (NL_nonneg n0 Hn0 cur) as Hk.
    assert (Zl : forall x, 0 <= x < NL log -> zin x (WL log) = (zin x (WL cur) && negb (zin x (removals rs))) || (NL cur <=? x)).
    { intros x Hx. destruct (zin x (WL log)) eqn:E1.
      - apply zin_In, HWL in E1. destruct E1 as [(E1 & E2)|E1]; [|lia].
        apply zin_In in E1. apply zin_not in E2. rewrite E1, E2. auto.
      - apply zin_not in E1. rewrite HWL in E1. symmetry. apply orb_false_iff. split; [|lia].
        destruct (zin x (WL cur)) eqn:E2; auto. destruct (zin x (removals rs)) eqn:E3; auto. exfalso. apply E1. left.
        apply zin_In in E2. apply zin_not in E3. auto. }
    unfold node_init.
    set (d1 := got_phase p (zlen log) d).
    change (d_peer d1) with (d_peer d). change (d_maxid d1) with (d_maxid d). change (d_lid d1) with (d_lid d).
    change (d_peers d1) with (d_peers d). change (d_phase d1) with p. change (d_epoch d1) with (zlen log).
    rewrite R1, R6.
    set (peer1 := setz (fun l0 => if (0 <=? l0) && (l0 <=? d_maxid d) then match d_peer d l0 with PsInvalid => PsDead | s => s end else d_peer d l0) l PsNoConnect).
    assert (T : forall x, 0 <= x < NL log -> peer1 x =
       match zin x (WL cur), zin x (WL log) with true, true => PsInResize | true, false => PsInResizeRemove | false, true => PsNoConnect | false, false => PsDead end).
    { intros x Hx. unfold peer1. rewrite Zl by auto. destruct (Z.eq_dec x l) as [->|Hne].
      - rewrite setz_eq. replace (zin l (WL cur)) with false.
        2:{ symmetry. apply zin_not. intros H. apply (WL_bound n0 Hn0) in H. lia. }
        replace (NL cur <=? l) with true by lia. rewrite orb_true_r. auto.
      - rewrite setz_ne by auto. replace ((0 <=? x) && (x <=? d_maxid d)) with true by lia.
        destruct (zin x (WL cur)) eqn:E1.
        + apply zin_In in E1. rewrite R9 by auto. pose proof (WL_bound n0 Hn0 _ _ E1).
          replace (NL cur <=? x) with false by lia. rewrite orb_false_r. simpl. destruct (zin x (removals rs)); auto.
        + apply zin_not in E1. simpl. destruct (NL cur <=? x) eqn:E2; [rewrite R10 by lia; auto|rewrite R11 by (auto; lia); auto]. }
    rewrite Hmx.
    rewrite init_count_fold.
    2:{ intros x Hx. apply zcount_in in Hx. rewrite T by auto. destruct (zin x (WL cur)), (zin x (WL log)); auto. }
    cbn [obind].
    assert (Cn : zlen (filter (fun x => is_nc (peer1 x)) (zcount (NL log))) = zlen (joins rs)).
    { rewrite HNL, zcount_plus by lia. rewrite filter_app, filter_false, filter_true.
      - simpl. rewrite zfrom_len. lia.
      - intros x Hx. apply zfrom_in in Hx. rewrite T by lia. rewrite Zl by lia.
        replace (zin x (WL cur)) with false.
        2:{ symmetry. apply zin_not. intros H. apply (WL_bound n0 Hn0) in H. lia. }
        replace (NL cur <=? x) with true by lia. rewrite orb_true_r. auto.
      - intros x Hx. apply zcount_in in Hx. rewrite T by lia. rewrite Zl by lia. replace (NL cur <=? x) with false by lia.
        rewrite orb_false_r. destruct (zin x (WL cur)); simpl; auto. destruct (zin x (removals rs)); auto. }
    assert (Fo : filter (fun x => zin x (WL cur)) (zcount (NL log)) = WL cur) by (apply WL_filter; auto; lia).
    assert (Fn : filter (fun x => zin x (WL log)) (zcount (NL log)) = WL log) by (apply WL_filter; auto; lia).
    assert (Co : zlen (filter (fun x => is_old (peer1 x)) (zcount (NL log))) = zlen (WL cur)).
    { rewrite <- Fo at 1. f_equal. apply filter_ext_in'. intros x Hx. apply zcount_in in Hx. rewrite T by auto.
      destruct (zin x (WL cur)), (zin x (WL log)); auto. }
    assert (Cr : zlen (filter (fun x => is_rem (peer1 x)) (zcount (NL log))) = zlen (removals rs)).
    { rewrite <- (removals_len cur rs HF). rewrite <- Fo at 1. rewrite filter_filter. f_equal.
      apply filter_ext_in'. intros x Hx. apply zcount_in in Hx. rewrite T by auto. rewrite Zl by auto.
      destruct (zin x (WL cur)) eqn:E1; simpl.
      - assert (x < NL cur) by (apply zin_In in E1; apply (WL_bound n0 Hn0) in E1; lia).
        replace (NL cur <=? x) with false by lia. rewrite orb_false_r. destruct (zin x (removals rs)); auto.
      - destruct (NL cur <=? x); auto. }
    rewrite Cn, Co, Cr, !Z.add_0_l.
    replace (zlen (WL cur) + zlen (joins rs) - 1 + 1 =? zlen (WL cur) + zlen (joins rs)) with true by lia. cbn [cassert].
    assert (Hpos : 1 <= zlen (WL cur)).
    { destruct (WL cur); [easy|]. rewrite zlen_cons. pose proof (zlen_nonneg l0). lia. }
    replace (zlen (WL cur) =? 0) with false by lia.
    pose proof (WL_len cur rs HF) as HL. fold log in HL.
    replace (zlen (WL cur) + zlen (joins rs) - 1 + 1 - zlen (removals rs)) with (zlen (WL log)) by lia.
    assert (Hle : zlen (WL cur) <= zlen (WL log)).
    { destruct F3 as [F3|F3]; [|lia]. rewrite F3 in Hl. unfold zlen in Hl. simpl in Hl. lia. }
    assert (Hlw : In l (WL log)) by (apply HWL; right; lia).
    destruct (init_fold (fun x => zin x (WL cur)) (fun x => zin x (WL log)) l (NL log) (zlen (WL log)) (zlen (WL cur)) junk peer1)
      as (b & Eb & Bb & Bp & Bm & Pb); auto; try (rewrite Fo; auto); try (rewrite Fn; auto); try lia.
    { apply zin_In. auto. }
    rewrite Eb. cbn [obind].
    destruct Bb as [B1 B2 B3 B4 B5]. rewrite Fo, Fn in *.
    rewrite B1, Z.eqb_refl. cbn [cassert]. rewrite B2, Z.eqb_refl. cbn [cassert].
    eexists. split; [reflexivity|].
    assert (Elog : log = cur ++ [rs]).
    { unfold log, nlog. destruct rs; auto. unfold zlen in Hl; simpl in Hl. lia. }
    assert (Ll : zlen log = zlen cur + 1) by (rewrite Elog, zlen_app; reflexivity).
    pose proof (zlen_nonneg cur).
    assert (Ec : world_at n0 log (zlen cur) = WL cur) by (rewrite Elog, world_at_grow, world_at_end by lia; auto).
    constructor; simpl; auto.
    - eexists. split; [reflexivity|]. split; [reflexivity|]. split; [reflexivity|]. split; [|simpl; discriminate].
      constructor; cbn [i_epoch i_world i_locations w_size w_mem w_max w_myid w_parent]; rewrite ?world_at_end, ?locations_at_end; auto; try lia.
      + apply group_locs_eq; auto.
      + replace (zlen log - 1) with (zlen cur) by lia. rewrite !Ec. cbn [p_size p_mem p_myid]. split; [lia|]. split; auto. split; [apply group_locs_eq; auto|].
        split; [|split].
        * symmetry. apply index_notin. intros H2. apply (WL_bound n0 Hn0) in H2. lia.
        * intros r x N Hr. apply B4; auto.
        * intros r x N Hr. apply B5; auto.
    - lia.
    - intros x Hx. apply R7. lia.
    - intros x Hx. rewrite Pb by (apply (WL_bound n0 Hn0); auto). apply zin_In in Hx. rewrite Hx. auto.
    - intros x Hx Hnw. rewrite Pb by auto. apply zin_not in Hnw. rewrite Hnw. destruct (zin x (WL cur)); auto.
  Qed.
End Init.
