(* Closed form of the operations computed by calcAddReductions *)
From Coq Require Import ZArith List Bool Lia Permutation Sorted ZifyBool ZifyNat.
From Verif Require Import Base ListFacts Model_Space Spec_Space Model_RangeList Spec_RangeList Proof_RangeList Proof_RangeList5
  Model_Partitioner Proof_Partitioner2 Model_Group Proof_Group Proof_Group3 Model_Transition Proof_Trans1.
Import ListNotations.
Open Scope Z_scope.

Definition owners (gsize : Z) (l : list trg) (x : Z) : list Z := filter (fun t => 1 <=? cov l t x) (zcount gsize).

Fixpoint segs (sl : list border) : list (Z * Z) :=
  match sl with
  | b :: l' =>
    match l' with
    | nb :: _ => if bd_b nb >? bd_b b then (bd_b b, bd_b nb) :: segs l' else segs l'
    | [] => []
    end
  | [] => []
  end.

Lemma zlist_eqb_ok a : forall b, zlist_eqb a b = true <-> a = b.
Proof.
  induction a as [|x a IH]; intros [|y b]; simpl; split; intros H; try discriminate; auto.
  - apply andb_prop in H. destruct H as [H1 H2]. apply IH in H2. f_equal; [lia|auto].
  - injection H as -> ->. rewrite Z.eqb_refl. simpl. apply IH. auto.
Qed.

Lemma zcount_sset n : sset (zcount n).
Proof. apply zcount_sorted. Qed.

Lemma owners_sset n l x : sset (owners n l x).
Proof. apply filter_sorted. apply zcount_sset. Qed.

Lemma owners_in n l x t : In t (owners n l x) <-> 0 <= t < n /\ 1 <= cov l t x.
Proof. unfold owners. rewrite filter_In, zcount_In. lia. Qed.

Lemma sset_full n g : sset g -> (forall t, In t g -> 0 <= t < n) -> Z.of_nat (length g) = n -> g = zcount n.
Proof.
  intros S H E. apply sset_ext; auto; [apply zcount_sset|]. intros x. rewrite zcount_In. split; [auto|]. intros Hx.
  assert (I : incl (zcount n) g); [|apply I, zcount_In; auto].
  apply NoDup_length_incl.
  - apply sset_NoDup; auto.
  - pose proof (zcount_length n). lia.
  - intros y Hy. apply zcount_In. auto.
Qed.

Lemma sset_length n g : sset g -> (forall t, In t g -> 0 <= t < n) -> 0 <= n -> Z.of_nat (length g) <= n.
Proof.
  intros S H Hn. pose proof (NoDup_incl_length (sset_NoDup g S) (l' := zcount n)) as X.
  pose proof (zcount_length n) as Y. assert (incl g (zcount n)) by (intros y Hy; apply zcount_In; auto). specialize (X H0). lia.
Qed.

(* resolving group numbers *)
Definition grp (gsize : Z) (gl : list (list Z)) (k : Z) : option (list Z) :=
  if k =? -1 then Some (zcount gsize) else if k <? 0 then None else nth_error gl (Z.to_nat k).

Lemma grp_app gsize gl gl' k g : grp gsize gl k = Some g -> grp gsize (gl ++ gl') k = Some g.
Proof.
  unfold grp. destruct (k =? -1); auto. destruct (k <? 0); auto. intros H. rewrite nth_error_app1; auto.
  apply nth_error_Some. congruence.
Qed.

Lemma find_group_ok tg gl : forall k0 k, find_group tg k0 gl = Some k -> k0 <= k /\ nth_error gl (Z.to_nat (k - k0)) = Some tg.
Proof.
  induction gl as [|g gl IH]; intros k0 k H; [discriminate|]. simpl in H. destruct (zlist_eqb tg g) eqn:E.
  - injection H as <-. apply zlist_eqb_ok in E. subst. rewrite Z.sub_diag. split; [lia|reflexivity].
  - apply IH in H. destruct H as [H1 H2]. split; [lia|]. replace (Z.to_nat (k - k0)) with (S (Z.to_nat (k - (k0 + 1)))) by lia. auto.
Qed.

Lemma getTaskGroup_ok gl tg : exists k gx, getTaskGroup gl tg = (k, gl ++ gx) /\ 0 <= k /\ nth_error (gl ++ gx) (Z.to_nat k) = Some tg.
Proof.
  unfold getTaskGroup. destruct (find_group tg 0 gl) as [k|] eqn:E.
  - apply find_group_ok in E. destruct E as [E1 E2]. exists k, []. rewrite app_nil_r. rewrite Z.sub_0_r in E2. auto.
  - exists (Z.of_nat (length gl)), [tg]. split; auto. split; [lia|]. rewrite Nat2Z.id, nth_error_app2 by lia.
    rewrite Nat.sub_diag. auto.
Qed.

Lemma aread_nth {A} (l : list A) k x : 0 <= k -> nth_error l (Z.to_nat k) = Some x -> aread l k = Ok x.
Proof. intros H E. unfold aread. destruct (k <? 0) eqn:X; [lia|]. rewrite E. auto. Qed.

  Definition memb (t : Z) (g : list Z) : bool := existsb (Z.eqb t) g.
  Lemma memb_in t g : memb t g = true <-> In t g.
  Proof. unfold memb. rewrite existsb_exists. split; [intros [x [X1 X2]]; assert (t = x) by lia; subst; auto|intros; exists t; split; auto; lia]. Qed.

Section Run.
  Variables fr tl : list trg.
  Let L (inp : bool) := if inp then fr else tl.
  Variables gsize me : Z.
  Variable red : redop.
  Hypothesis Hpos : forall inp x, In x (L inp) -> tf x < tt x.
  Hypothesis Hone : forall inp t x, cov (L inp) t x <= 1.
  Hypothesis Htask : forall inp x, In x (L inp) -> 0 <= t_task x < gsize.
  Hypothesis Hme : 0 <= me < gsize.
  Hypothesis Hsize : gsize <= max_tasks.
  Variable sl : list border.
  Hypothesis Hperm : Permutation (allb fr tl) sl.
  Hypothesis Hsort : StronglySorted ble sl.

  Let own (inp : bool) x := owners gsize (L inp) x.

  Lemma cov_task inp t x : 1 <= cov (L inp) t x -> 0 <= t < gsize.
  Proof.
    intros H. apply ncnt_positive in H. destruct H as [a [A1 A2]]. specialize (Htask inp a A1). unfold has in A2. lia.
  Qed.
  Lemma own_in inp t x : In t (own inp x) <-> cov (L inp) t x = 1.
  Proof.
    unfold own. rewrite owners_in. pose proof (Hone inp t x). split; [lia|]. intros H0. split; [|lia]. apply (cov_task inp t x). lia.
  Qed.
  Lemma cov_pos inp t x : 0 <= cov (L inp) t x. Proof. unfold cov. lia. Qed.

  (* numbers of the own range open at the current point *)
  Definition openAt (inp : bool) (P : list border) (R M : Z) : Prop :=
    exists a, In a (ann 0 (-1) (-1) (L inp)) /\ t_task (fst a) = me /\ snd a = R /\ t_mapNo (fst a) = M /\
      In (mkBd (tf (fst a)) me R M true inp) P /\ ~ In (mkBd (tt (fst a)) me R M false inp) P.

  Definition StInv (P : list border) (s : cstate) : Prop :=
    (sset (c_in s) /\ forall t, In t (c_in s) <-> cnt true t P = 1) /\
    (sset (c_out s) /\ forall t, In t (c_out s) <-> cnt false t P = 1) /\
    (forall inp t, cnt inp t P = 0 \/ cnt inp t P = 1) /\
    c_actIn s = (cnt true me P =? 1) /\ c_actOut s = (cnt false me P =? 1) /\
    (cnt true me P = 1 -> openAt true P (c_inR s) (c_inM s)) /\
    (cnt false me P = 1 -> openAt false P (c_outR s) (c_outM s)).

  Lemma sl_task b : In b sl -> 0 <= bd_task b < gsize.
  Proof.
    intros Hb. destruct (in_border fr tl sl Hperm b Hb) as [a [A1 [A2 _]]]. rewrite A2. apply (Htask (bd_isInput b)).
    apply (ann_in fr tl). auto.
  Qed.

  Lemma openAt_mono inp P e R M : openAt inp P R M -> ~ (bd_isInput e = inp /\ bd_task e = me) -> openAt inp (P ++ [e]) R M.
  Proof.
    intros [a [A1 [A2 [A3 [A4 [A5 A6]]]]]] H. exists a. conjs; auto.
    - apply in_or_app. left; auto.
    - intros X. apply in_app_or in X. destruct X as [X|[X|[]]]; [auto|]. apply H. subst e. simpl. auto.
  Qed.

  Lemma openAt_start P e R : sl = P ++ e :: R -> bd_task e = me -> bd_isStart e = true ->
    openAt (bd_isInput e) (P ++ [e]) (bd_rangeNo e) (bd_mapNo e).
  Proof.
    intros E Et Es. destruct (sorted_mid fr tl sl Hperm Hsort P e R E) as [HP _].
    assert (He : In e sl) by (rewrite E; apply in_or_app; right; left; auto).
    destruct (in_border fr tl sl Hperm e He) as [a [A1 [A2 [A3 [A4 A5]]]]]. rewrite Es in A5.
    pose proof (Hpos _ _ (ann_in fr tl _ _ A1)) as Hp.
    exists a. split; [exact A1|]. split; [congruence|]. split; [congruence|]. split; [congruence|]. split.
    - apply in_or_app. right; left. destruct e; simpl in *; subst; auto.
    - intros X. apply in_app_or in X. destruct X as [X|[X|[]]].
      + specialize (HP _ X). unfold ble in HP. simpl in HP. lia.
      + apply (f_equal bd_isStart) in X. simpl in X. congruence.
  Qed.

  Lemma cnt_tasks P e R inp : sl = P ++ e :: R -> forall t, cnt inp t P = 1 -> 0 <= t < gsize.
  Proof.
    intros E t H. unfold cnt in H. pose proof (ncnt_pos (bsel inp false t (fun _ => true)) P).
    destruct (ncnt_positive (bsel inp true t (fun _ => true)) P) as [b [B1 B2]]; [lia|].
    unfold bsel in B2. assert (bd_task b = t) by lia. subst t. apply sl_task. rewrite E. apply in_or_app; auto.
  Qed.

  Lemma update_ok P e R s : sl = P ++ e :: R -> StInv P s ->
    exists s', cs_update me s e = Ok s' /\ StInv (P ++ [e]) s' /\ c_ops s' = c_ops s.
  Proof.
    intros E [[I1 I2] [[O1 O2] [C [A1 [A2 [N1 N2]]]]]].
    pose proof (before fr tl Hpos Hone sl Hperm Hsort P e R E) as Hb.
    pose proof (fun inp t => cnt_snoc fr tl Hone inp t P e) as Hs.
    assert (Hlen : forall inp g, sset g -> (forall t, In t g <-> cnt inp t P = 1) -> bd_isInput e = inp -> bd_isStart e = true ->
      exists g', addTask max_tasks g (bd_task e) = Ok (Some g') /\ sset g' /\ (forall x, In x g' <-> x = bd_task e \/ In x g)).
    { intros inp g G1 G2 Ei Es. rewrite Es, Ei in Hb.
      destruct (ins_task_ok g (bd_task e) G1) as [g' [G3 [G4 [G5 G6]]]].
      { rewrite G2. lia. }
      exists g'. split; auto. unfold addTask. rewrite G3.
      assert (Z.of_nat (length g') <= gsize).
      { apply sset_length; auto; [|lia]. intros t Ht. apply G5 in Ht. destruct Ht as [->|Ht].
        - apply sl_task. rewrite E. apply in_or_app; right; left; auto.
        - apply G2 in Ht. eapply cnt_tasks; eauto. }
      assert (X : Z.of_nat (length g) <? max_tasks = true) by lia. rewrite X. auto. }
    assert (C' : forall inp t, cnt inp t (P ++ [e]) = 0 \/ cnt inp t (P ++ [e]) = 1).
    { intros inp t. rewrite Hs. specialize (C inp t).
      destruct (eqb (bd_isInput e) inp && (bd_task e =? t)) eqn:X; [|lia].
      apply andb_prop in X. destruct X as [X1 X2]. apply eqb_prop in X1. subst inp. assert (bd_task e = t) by lia. subst t. rewrite Hb.
      destruct (bd_isStart e); lia. }
    unfold cs_update. destruct (bd_isInput e) eqn:Ei, (bd_isStart e) eqn:Es.
    - destruct (Hlen true (c_in s) I1 I2 eq_refl eq_refl) as [g' [G1 [G2 G3]]]. rewrite G1. cbn [obind].
      eexists. split; [reflexivity|]. split; [|reflexivity]. unfold StInv. cbn [c_in c_out c_actIn c_actOut c_inR c_inM c_outR c_outM].
      split; [|split; [|split; [|split; [|split; [|split]]]]]; auto.
      + split; auto. intros t. rewrite G3, I2, Hs. cbn [eqb andb]. destruct (bd_task e =? t) eqn:X.
        * assert (bd_task e = t) by lia. subst t. lia.
        * lia.
      + split; auto. intros t. rewrite O2, Hs. cbn [eqb andb]. lia.
      + rewrite Hs. cbn [eqb andb]. destruct (bd_task e =? me) eqn:X; [|rewrite A1; lia].
        assert (bd_task e = me) by lia. rewrite H in Hb. rewrite Hb. auto.
      + rewrite Hs. cbn [eqb andb]. rewrite A2. lia.
      + intros H. destruct (bd_task e =? me) eqn:X.
        * rewrite <- Ei. apply (openAt_start P e R); auto. lia.
        * apply openAt_mono; [|lia]. apply N1. rewrite Hs, X, andb_false_r in H. lia.
      + intros H. apply openAt_mono; [|rewrite Ei; intros [? ?]; discriminate]. apply N2. rewrite Hs in H. cbn [eqb andb] in H. lia.
    - destruct (rm_task_ok (c_in s) (bd_task e) I1) as [g' [G1 [G2 G3]]]; [rewrite I2; lia|]. rewrite G1.
      eexists. split; [reflexivity|]. split; [|reflexivity]. unfold StInv. cbn [c_in c_out c_actIn c_actOut c_inR c_inM c_outR c_outM].
      split; [|split; [|split; [|split; [|split; [|split]]]]]; auto.
      + split; auto. intros t. rewrite G3, I2, Hs. cbn [eqb andb]. destruct (bd_task e =? t) eqn:X.
        * assert (bd_task e = t) by lia. subst t. lia.
        * lia.
      + split; auto. intros t. rewrite O2, Hs. cbn [eqb andb]. lia.
      + rewrite Hs. cbn [eqb andb]. destruct (bd_task e =? me) eqn:X; [|rewrite A1; lia].
        assert (bd_task e = me) by lia. rewrite H in Hb. rewrite Hb. auto.
      + rewrite Hs. cbn [eqb andb]. rewrite A2. lia.
      + intros H. destruct (bd_task e =? me) eqn:X.
        * assert (Q : bd_task e = me) by lia. rewrite Q in Hb. rewrite Hs, X in H. cbn [eqb andb] in H. lia.
        * apply openAt_mono; [|lia]. apply N1. rewrite Hs, X, andb_false_r in H. lia.
      + intros H. apply openAt_mono; [|rewrite Ei; intros [? ?]; discriminate]. apply N2. rewrite Hs in H. cbn [eqb andb] in H. lia.
    - destruct (Hlen false (c_out s) O1 O2 eq_refl eq_refl) as [g' [G1 [G2 G3]]]. rewrite G1. cbn [obind].
      eexists. split; [reflexivity|]. split; [|reflexivity]. unfold StInv. cbn [c_in c_out c_actIn c_actOut c_inR c_inM c_outR c_outM].
      split; [|split; [|split; [|split; [|split; [|split]]]]]; auto.
      + split; auto. intros t. rewrite I2, Hs. cbn [eqb andb]. lia.
      + split; auto. intros t. rewrite G3, O2, Hs. cbn [eqb andb]. destruct (bd_task e =? t) eqn:X.
        * assert (bd_task e = t) by lia. subst t. lia.
        * lia.
      + rewrite Hs. cbn [eqb andb]. rewrite A1. lia.
      + rewrite Hs. cbn [eqb andb]. destruct (bd_task e =? me) eqn:X; [|rewrite A2; lia].
        assert (bd_task e = me) by lia. rewrite H in Hb. rewrite Hb. auto.
      + intros H. apply openAt_mono; [|rewrite Ei; intros [? ?]; discriminate]. apply N1. rewrite Hs in H. cbn [eqb andb] in H. lia.
      + intros H. destruct (bd_task e =? me) eqn:X.
        * rewrite <- Ei. apply (openAt_start P e R); auto. lia.
        * apply openAt_mono; [|lia]. apply N2. rewrite Hs, X, andb_false_r in H. lia.
    - destruct (rm_task_ok (c_out s) (bd_task e) O1) as [g' [G1 [G2 G3]]]; [rewrite O2; lia|]. rewrite G1.
      eexists. split; [reflexivity|]. split; [|reflexivity]. unfold StInv. cbn [c_in c_out c_actIn c_actOut c_inR c_inM c_outR c_outM].
      split; [|split; [|split; [|split; [|split; [|split]]]]]; auto.
      + split; auto. intros t. rewrite I2, Hs. cbn [eqb andb]. lia.
      + split; auto. intros t. rewrite G3, O2, Hs. cbn [eqb andb]. destruct (bd_task e =? t) eqn:X.
        * assert (bd_task e = t) by lia. subst t. lia.
        * lia.
      + rewrite Hs. cbn [eqb andb]. rewrite A1. lia.
      + rewrite Hs. cbn [eqb andb]. destruct (bd_task e =? me) eqn:X; [|rewrite A2; lia].
        assert (bd_task e = me) by lia. rewrite H in Hb. rewrite Hb. auto.
      + intros H. apply openAt_mono; [|rewrite Ei; intros [? ?]; discriminate]. apply N1. rewrite Hs in H. cbn [eqb andb] in H. lia.
      + intros H. destruct (bd_task e =? me) eqn:X.
        * assert (Q : bd_task e = me) by lia. rewrite Q in Hb. rewrite Hs, X in H. cbn [eqb andb] in H. lia.
        * apply openAt_mono; [|lia]. apply N2. rewrite Hs, X, andb_false_r in H. lia.
  Qed.

  (* closed form per segment *)

  Definition sg_local (s : Z * Z) : list box :=
    match own true (fst s) with
    | [i] => if (i =? me) && memb me (own false (fst s)) then [box1 (fst s) (snd s)] else []
    | _ => []
    end.
  Definition sg_send (s : Z * Z) : list (box * Z) :=
    match own true (fst s) with
    | [i] => if i =? me then map (fun t => (box1 (fst s) (snd s), t)) (filter (fun t => negb (t =? me)) (own false (fst s))) else []
    | _ => []
    end.
  Definition sg_recv (s : Z * Z) : list (box * Z) :=
    match own true (fst s) with
    | [i] => if negb (i =? me) && memb me (own false (fst s)) then [(box1 (fst s) (snd s), i)] else []
    | _ => []
    end.
  Definition sg_red (s : Z * Z) : list (box * redop * option (list Z) * option (list Z)) :=
    match own true (fst s) with
    | [i] => []
    | _ => if memb me (own true (fst s)) || memb me (own false (fst s))
           then [(box1 (fst s) (snd s), red, Some (own true (fst s)), Some (own false (fst s)))] else []
    end.

  (* the asserts for a segment *)
  Definition sg_good (s : Z * Z) : bool :=
    negb (memb me (own true (fst s)) || memb me (own false (fst s))) ||
    match own true (fst s) with
    | [_] => oneInputIsCopy red
    | _ => is_reduction red
    end.

  Definition numok (inp : bool) (b : box) (R M : Z) : Prop :=
    exists a, In a (ann 0 (-1) (-1) (L inp)) /\ t_task (fst a) = me /\ snd a = R /\ t_mapNo (fst a) = M /\
      tf (fst a) <= i0 (b_from b) /\ i0 (b_to b) <= tt (fst a).
  Definition numAt (inp : bool) (b : box) (R M : Z) : Prop :=
    cov (L inp) me (i0 (b_from b)) = 1 -> numok inp b R M.

  Definition res_red (gl : list (list Z)) (r : redTOp) :=
    (rd_box r, rd_redOp r, grp gsize gl (rd_in r), grp gsize gl (rd_out r)).

  Record OpsInv (D : list (Z * Z)) (o : tops) : Prop := mkOpsInv {
    oi_init : tp_init o = [];
    oi_local : map lo_box (tp_local o) = flat_map sg_local D;
    oi_send : map (fun x => (sd_box x, sd_to x)) (tp_send o) = flat_map sg_send D;
    oi_recv : map (fun x => (rc_box x, rc_from x)) (tp_recv o) = flat_map sg_recv D;
    oi_red : map (res_red (tp_groups o)) (tp_red o) = flat_map sg_red D;
    oi_lnum : Forall (fun x => numAt true (lo_box x) (lo_fromRangeNo x) (lo_fromMapNo x) /\
                               numAt false (lo_box x) (lo_toRangeNo x) (lo_toMapNo x)) (tp_local o);
    oi_snum : Forall (fun x => numAt true (sd_box x) (sd_rangeNo x) (sd_mapNo x)) (tp_send o);
    oi_rnum : Forall (fun x => numAt false (rc_box x) (rc_rangeNo x) (rc_mapNo x)) (tp_recv o);
    oi_dnum : Forall (fun x => numAt true (rd_box x) (rd_inRangeNo x) (rd_inMapNo x) /\
                               numAt false (rd_box x) (rd_outRangeNo x) (rd_outMapNo x)) (tp_red o) }.

  (* state between two borders *)
  Lemma gap_state P e nb R s : sl = P ++ e :: nb :: R -> bd_b e < bd_b nb -> StInv (P ++ [e]) s ->
    c_in s = own true (bd_b e) /\ c_out s = own false (bd_b e) /\
    c_actIn s = memb me (own true (bd_b e)) /\ c_actOut s = memb me (own false (bd_b e)) /\
    numAt true (box1 (bd_b e) (bd_b nb)) (c_inR s) (c_inM s) /\
    numAt false (box1 (bd_b e) (bd_b nb)) (c_outR s) (c_outM s).
  Proof.
    intros E Hlt [[I1 I2] [[O1 O2] [C [A1 [A2 [N1 N2]]]]]].
    destruct (sorted_mid fr tl sl Hperm Hsort P e (nb :: R) E) as [HP HR].
    assert (E' : sl = (P ++ [e]) ++ nb :: R) by (rewrite <- app_assoc; exact E).
    destruct (sorted_mid fr tl sl Hperm Hsort (P ++ [e]) nb R E') as [HP' HR'].
    assert (X1 : forall b, In b (P ++ [e]) -> bd_b b <= bd_b e).
    { intros b Hb. apply in_app_or in Hb. destruct Hb as [Hb|[->|[]]]; [|lia]. specialize (HP b Hb). unfold ble in HP. lia. }
    assert (X2 : forall b, In b (nb :: R) -> bd_b nb <= bd_b b).
    { intros b [->|Hb]; [lia|]. specialize (HR' b Hb). unfold ble in HR'. lia. }
    assert (G : forall inp t, cnt inp t (P ++ [e]) = cov (L inp) t (bd_b e)).
    { apply (at_gap fr tl Hpos Hone sl Hperm (P ++ [e]) (bd_b e) (nb :: R)); auto. intros b Hb. specialize (X2 b Hb). lia. }
    assert (M : forall inp, (cnt inp me (P ++ [e]) =? 1) = memb me (own inp (bd_b e))).
    { intros inp. rewrite G. destruct (memb me (own inp (bd_b e))) eqn:Q.
      - apply memb_in, own_in in Q. lia.
      - assert (~ In me (own inp (bd_b e))) by (rewrite <- memb_in; congruence). rewrite own_in in H. lia. }
    assert (Nm : forall inp R0 M0, (cnt inp me (P ++ [e]) = 1 -> openAt inp (P ++ [e]) R0 M0) -> numAt inp (box1 (bd_b e) (bd_b nb)) R0 M0).
    { intros inp R0 M0 N H. cbn [i0 b_from box1] in H. rewrite <- G in H. destruct (N H) as [a [B1 [B2 [B3 [B4 [B5 B6]]]]]].
      exists a. conjs; auto; cbn [i0 b_from b_to box1].
      - specialize (X1 _ B5). simpl in X1. auto.
      - pose proof (border_in fr tl sl Hperm inp a false B1) as Hin. cbv iota in Hin. rewrite E' in Hin. apply in_app_or in Hin.
        destruct Hin as [Hin|Hin]; [exfalso; apply B6; rewrite B2, B3, B4 in Hin; exact Hin|].
        specialize (X2 _ Hin). simpl in X2. lia. }
    conjs; auto.
    - apply sset_ext; auto; [apply owners_sset|]. intros t. rewrite I2, G, own_in. reflexivity.
    - apply sset_ext; auto; [apply owners_sset|]. intros t. rewrite O2, G, own_in. reflexivity.
    - rewrite A1. apply M.
    - rewrite A2. apply M.
  Qed.

  Lemma fold_out s bx : forall g o D, NoDup g ->
    tp_init (fold_left (seg_out me s bx) g o) = tp_init o /\
    tp_local (fold_left (seg_out me s bx) g o) = tp_local o ++ (if memb me g then [mkLocalT bx (c_inR s) (c_outR s) (c_inM s) (c_outM s)] else []) /\
    tp_send (fold_left (seg_out me s bx) g o) = tp_send o ++ map (fun t => mkSendT bx (c_inR s) (c_inM s) t) (filter (fun t => negb (t =? me)) g) /\
    tp_recv (fold_left (seg_out me s bx) g o) = tp_recv o /\ tp_red (fold_left (seg_out me s bx) g o) = tp_red o /\
    tp_groups (fold_left (seg_out me s bx) g o) = tp_groups o /\ D = D :> Z.
  Proof.
    induction g as [|t g IH]; intros o D ND; simpl.
    - rewrite !app_nil_r. conjs; auto.
    - inversion ND as [|? ? N1 N2]; subst. specialize (IH (seg_out me s bx o t) D N2). destruct IH as [J0 [J1 [J2 [J3 [J4 [J5 _]]]]]].
      rewrite J0, J1, J2, J3, J4, J5. unfold seg_out. destruct (t =? me) eqn:X; simpl.
      + assert (t = me) by lia. subst t. rewrite Z.eqb_refl. simpl.
        assert (memb me g = false) by (destruct (memb me g) eqn:Q; auto; apply memb_in in Q; tauto). rewrite H, app_nil_r. conjs; auto.
      + assert ((me =? t) = false) by lia. rewrite H. simpl. rewrite <- app_assoc. conjs; auto.
  Qed.

  Lemma fold_in i s bx : forall g o D, NoDup g ->
    tp_init (fold_left (seg_in me i s bx) g o) = tp_init o /\
    tp_local (fold_left (seg_in me i s bx) g o) = tp_local o /\
    tp_send (fold_left (seg_in me i s bx) g o) = tp_send o /\
    tp_recv (fold_left (seg_in me i s bx) g o) = tp_recv o ++ (if memb me g then [mkRecvT bx (c_outR s) (c_outM s) i] else []) /\
    tp_red (fold_left (seg_in me i s bx) g o) = tp_red o /\
    tp_groups (fold_left (seg_in me i s bx) g o) = tp_groups o /\ D = D :> Z.
  Proof.
    induction g as [|t g IH]; intros o D ND; simpl.
    - rewrite !app_nil_r. conjs; auto.
    - inversion ND as [|? ? N1 N2]; subst. specialize (IH (seg_in me i s bx o t) D N2). destruct IH as [J0 [J1 [J2 [J3 [J4 [J5 _]]]]]].
      rewrite J0, J1, J2, J3, J4, J5. unfold seg_in. destruct (t =? me) eqn:X; simpl.
      + assert (t = me) by lia. subst t. rewrite Z.eqb_refl. simpl.
        assert (memb me g = false) by (destruct (memb me g) eqn:Q; auto; apply memb_in in Q; tauto). rewrite H, app_nil_r. conjs; auto.
      + assert ((me =? t) = false) by lia. rewrite H. simpl. conjs; auto.
  Qed.

  Lemma red_ok s bx D o : c_ops s = o -> c_in s = own true (fst bx) -> c_out s = own false (fst bx) ->
    OpsInv D o ->
    numAt true (box1 (fst bx) (snd bx)) (c_inR s) (c_inM s) -> numAt false (box1 (fst bx) (snd bx)) (c_outR s) (c_outM s) ->
    sg_local bx = [] -> sg_send bx = [] -> sg_recv bx = [] ->
    sg_red bx = [(box1 (fst bx) (snd bx), red, Some (own true (fst bx)), Some (own false (fst bx)))] ->
    match seg_red gsize red s (box1 (fst bx) (snd bx)) with
    | Ok o' => is_reduction red = true /\ OpsInv (D ++ [bx]) o'
    | Abort => is_reduction red = false
    | _ => False
    end.
  Proof.
    intros Eo Ei Eout V N1 N2 S1 S2 S3 S4. unfold seg_red. rewrite Eo, Ei, Eout.
    destruct (getTaskGroup_ok (tp_groups o) (own true (fst bx))) as [k [gx [K1 [K2 K3]]]]. rewrite K1. cbn [fst snd].
    destruct (getTaskGroup_ok (tp_groups o ++ gx) (own false (fst bx))) as [k' [gx' [K1' [K2' K3']]]]. rewrite K1'. cbn [fst snd].
    assert (K4 : nth_error ((tp_groups o ++ gx) ++ gx') (Z.to_nat k) = Some (own true (fst bx))).
    { rewrite nth_error_app1; auto. apply nth_error_Some. congruence. }
    rewrite (aread_nth _ k _ K2 K4), (aread_nth _ k' _ K2' K3'). cbn [obind].
    assert (RR : forall kk inp, 0 <= kk -> nth_error ((tp_groups o ++ gx) ++ gx') (Z.to_nat kk) = Some (own inp (fst bx)) ->
      grp gsize ((tp_groups o ++ gx) ++ gx') (if Z.of_nat (length (own inp (fst bx))) =? gsize then -1 else kk) = Some (own inp (fst bx))).
    { intros kk inp Hk Hn. unfold grp. destruct (Z.of_nat (length (own inp (fst bx))) =? gsize) eqn:Q.
      - rewrite Z.eqb_refl. f_equal. symmetry. apply sset_full; [apply owners_sset| |lia].
        intros t Ht. apply own_in in Ht. apply (cov_task inp t (fst bx)). lia.
      - destruct (kk =? -1) eqn:Q1; [lia|]. destruct (kk <? 0) eqn:Q2; [lia|]. auto. }
    destruct (is_reduction red) eqn:Er; cbn [cassert]; [|auto]. split; auto.
    destruct V as [V0 V1 V2 V3 V4 V5 V6 V7 V8].
    constructor; rewrite ?flat_map_app; cbn [flat_map]; rewrite ?S1, ?S2, ?S3, ?S4, ?app_nil_r;
      cbn [add_red set_groups tp_init tp_local tp_send tp_recv tp_red tp_groups]; auto.
    - rewrite map_app. cbn [map]. f_equal.
      + rewrite <- V4. apply map_ext_in. intros r Hr. unfold res_red.
        assert (Hx : In (res_red (tp_groups o) r) (flat_map sg_red D)) by (rewrite <- V4; apply in_map; auto).
        apply in_flat_map in Hx. destruct Hx as [sg [_ Hx]]. unfold sg_red in Hx.
        assert (Hy : exists I O, grp gsize (tp_groups o) (rd_in r) = Some I /\ grp gsize (tp_groups o) (rd_out r) = Some O).
        { destruct (own true (fst sg)) as [|? [|? ?]]; try (destruct Hx; fail);
          (destruct (_ || _) in Hx; [|destruct Hx]); destruct Hx as [Hx|[]]; unfold res_red in Hx; injection Hx as _ _ Hx1 Hx2;
          rewrite <- Hx1, <- Hx2; eauto. }
        destruct Hy as [I [O [Y1 Y2]]]. rewrite <- !app_assoc.
        rewrite (grp_app gsize _ (gx ++ gx') _ _ Y1), (grp_app gsize _ (gx ++ gx') _ _ Y2), Y1, Y2. auto.
      + unfold res_red. cbn [rd_box rd_redOp rd_in rd_out]. rewrite (RR k true), (RR k' false); auto.
    - apply Forall_app. split; auto.
  Qed.

  Lemma seg_ok P e nb R s D : sl = P ++ e :: nb :: R -> bd_b e < bd_b nb -> StInv (P ++ [e]) s -> OpsInv D (c_ops s) ->
    match seg_ops false gsize me red s (bd_b e) (bd_b nb) with
    | Ok o => sg_good (bd_b e, bd_b nb) = true /\ OpsInv (D ++ [(bd_b e, bd_b nb)]) o
    | Abort => sg_good (bd_b e, bd_b nb) = false
    | _ => False
    end.
  Proof.
    intros E Hlt V W. destruct (gap_state P e nb R s E Hlt V) as [G1 [G2 [G3 [G4 [G5 G6]]]]].
    set (bx := (bd_b e, bd_b nb)). unfold seg_ops. rewrite G3, G4. unfold isInTaskGroup. rewrite G1, G2. fold (memb me (own true (bd_b e))) (memb me (own false (bd_b e))).
    unfold sg_good. cbn [fst bx].
    assert (App : forall o', tp_init o' = tp_init (c_ops s) -> tp_groups o' = tp_groups (c_ops s) -> tp_red o' = tp_red (c_ops s) -> sg_red bx = [] ->
      (exists l, tp_local o' = tp_local (c_ops s) ++ l /\ map lo_box l = sg_local bx /\
         Forall (fun x => numAt true (lo_box x) (lo_fromRangeNo x) (lo_fromMapNo x) /\ numAt false (lo_box x) (lo_toRangeNo x) (lo_toMapNo x)) l) ->
      (exists l, tp_send o' = tp_send (c_ops s) ++ l /\ map (fun x => (sd_box x, sd_to x)) l = sg_send bx /\
         Forall (fun x => numAt true (sd_box x) (sd_rangeNo x) (sd_mapNo x)) l) ->
      (exists l, tp_recv o' = tp_recv (c_ops s) ++ l /\ map (fun x => (rc_box x, rc_from x)) l = sg_recv bx /\
         Forall (fun x => numAt false (rc_box x) (rc_rangeNo x) (rc_mapNo x)) l) ->
      OpsInv (D ++ [bx]) o').
    { intros o' H0 H1 H2 H3 [l1 [L1 [L2 L3]]] [l2 [L4 [L5 L6]]] [l3 [L7 [L8 L9]]]. destruct W as [V0 V1 V2 V3 V4 V5 V6 V7 V8].
      constructor; rewrite ?flat_map_app; cbn [flat_map]; rewrite ?app_nil_r; rewrite ?H0, ?H1, ?H2, ?L1, ?L4, ?L7, ?map_app; auto; try congruence.
      - rewrite H3, app_nil_r. auto.
      - apply Forall_app; auto.
      - apply Forall_app; auto.
      - apply Forall_app; auto. }
    destruct (memb me (own true (bd_b e)) || memb me (own false (bd_b e))) eqn:Act; cbn [negb orb].
    2: { split; auto. apply orb_false_elim in Act. destruct Act as [Ac1 Ac2].
         apply App; auto.
         - unfold sg_red. cbn [fst bx]. rewrite Ac1, Ac2. destruct (own true (bd_b e)) as [|? [|? ?]]; auto.
         - exists []. rewrite app_nil_r. unfold sg_local. cbn [fst bx]. rewrite Ac2. split; auto. split; [|constructor].
           destruct (own true (bd_b e)) as [|? [|? ?]]; auto. rewrite andb_false_r. auto.
         - exists []. rewrite app_nil_r. unfold sg_send. cbn [fst bx]. split; auto. split; [|constructor].
           destruct (own true (bd_b e)) as [|i [|? ?]]; auto. destruct (i =? me) eqn:X; auto. simpl in Ac1. lia.
         - exists []. rewrite app_nil_r. unfold sg_recv. cbn [fst bx]. rewrite Ac2. split; auto. split; [|constructor].
           destruct (own true (bd_b e)) as [|? [|? ?]]; auto. rewrite andb_false_r. auto. }
    cbn [cassert].
    assert (Red : (match own true (bd_b e) with [_] => False | _ => True end) ->
      match seg_red gsize red s (box1 (bd_b e) (bd_b nb)) with
      | Ok o' => is_reduction red = true /\ OpsInv (D ++ [bx]) o' | Abort => is_reduction red = false | _ => False end).
    { intros Hn. apply (red_ok s bx D (c_ops s)); auto; cbn [fst snd bx];
      unfold sg_local, sg_send, sg_recv, sg_red; cbn [fst snd bx]; rewrite ?Act;
      destruct (own true (bd_b e)) as [|? [|? ?]]; auto; destruct Hn. }
    destruct (own true (bd_b e)) as [|i [|j g]] eqn:Eown.
    - exact (Red I).
    - clear Red. destruct (oneInputIsCopy red) eqn:Ecopy; cbn [cassert]; [|auto].
      pose proof (owners_sset gsize (L false) (bd_b e)) as So. fold (own false (bd_b e)) in So. pose proof (sset_NoDup _ So) as ND.
      assert (Er : sg_red bx = []) by (unfold sg_red; cbn [fst bx]; rewrite Eown; auto).
      destruct (i =? me) eqn:Eim.
      + assert (i = me) by lia. subst i.
        assert (Q : (if zlist_eqb (own false (bd_b e)) [me] then
          Ok (add_local (c_ops s) (mkLocalT (box1 (bd_b e) (bd_b nb)) (c_inR s) (c_outR s) (c_inM s) (c_outM s)))
          else if true then Ok (fold_left (seg_out me s (box1 (bd_b e) (bd_b nb))) (own false (bd_b e)) (c_ops s))
          else seg_red gsize red s (box1 (bd_b e) (bd_b nb))) =
          Ok (fold_left (seg_out me s (box1 (bd_b e) (bd_b nb))) (own false (bd_b e)) (c_ops s))).
        { destruct (zlist_eqb (own false (bd_b e)) [me]) eqn:Z; auto. apply zlist_eqb_ok in Z. rewrite Z. simpl. unfold seg_out. rewrite Z.eqb_refl. auto. }
        rewrite Q. split; auto.
        destruct (fold_out s (box1 (bd_b e) (bd_b nb)) (own false (bd_b e)) (c_ops s) 0 ND) as [F0 [F1 [F2 [F3 [F4 [F5 _]]]]]].
        apply App; auto.
        * rewrite F1. eexists. split; [reflexivity|]. unfold sg_local. cbn [fst snd bx]. rewrite Eown, Z.eqb_refl. cbn [andb].
          destruct (memb me (own false (bd_b e))); cbn [map lo_box]; split; auto.
        * rewrite F2. eexists. split; [reflexivity|]. unfold sg_send. cbn [fst snd bx]. rewrite Eown, Z.eqb_refl. rewrite map_map. cbn [sd_box sd_to].
          split; auto. apply Forall_forall. intros x Hx. apply in_map_iff in Hx. destruct Hx as [t [<- _]]. cbn. auto.
        * rewrite F3. exists []. rewrite app_nil_r. unfold sg_recv. cbn [fst snd bx]. rewrite Eown, Z.eqb_refl. cbn. auto.
      + cbn [negb]. split; auto.
        destruct (fold_in i s (box1 (bd_b e) (bd_b nb)) (own false (bd_b e)) (c_ops s) 0 ND) as [F0 [F1 [F2 [F3 [F4 [F5 _]]]]]].
        apply App; auto.
        * rewrite F1. exists []. rewrite app_nil_r. unfold sg_local. cbn [fst snd bx]. rewrite Eown, Eim. cbn. auto.
        * rewrite F2. exists []. rewrite app_nil_r. unfold sg_send. cbn [fst snd bx]. rewrite Eown, Eim. cbn. auto.
        * rewrite F3. eexists. split; [reflexivity|]. unfold sg_recv. cbn [fst snd bx]. rewrite Eown, Eim. cbn [negb andb].
          destruct (memb me (own false (bd_b e))); cbn [map rc_box rc_from]; split; auto.
    - exact (Red I).
  Qed.

  Lemma StInv_ops P s o : StInv P s -> StInv P (set_ops s o).
  Proof. intros V. exact V. Qed.

  Lemma loop_ok : forall R P s D, sl = P ++ R -> StInv P s -> OpsInv D (c_ops s) ->
    match cs_loop false gsize me red s R with
    | Ok s' => StInv sl s' /\ OpsInv (D ++ segs R) (c_ops s') /\ forallb sg_good (segs R) = true
    | Abort => forallb sg_good (segs R) = false
    | _ => False
    end.
  Proof.
    induction R as [|e R IH]; intros P s D E V W.
    - simpl. rewrite app_nil_r in E. subst. rewrite app_nil_r. auto.
    - cbn [cs_loop]. destruct (update_ok P e R s E V) as [s1 [U1 [U2 U3]]]. rewrite U1. cbn [obind]. rewrite <- U3 in W.
      assert (E' : sl = (P ++ [e]) ++ R) by (rewrite <- app_assoc; exact E).
      destruct R as [|nb R].
      + cbn [obind]. apply (IH (P ++ [e]) s1 D E' U2 W).
      + cbn [segs]. destruct (bd_b nb >? bd_b e) eqn:Q.
        * pose proof (seg_ok P e nb R s1 D E ltac:(lia) U2 W) as S.
          destruct (seg_ops false gsize me red s1 (bd_b e) (bd_b nb)) as [o| | | |] eqn:So; try (destruct S; fail).
          -- cbn [obind]. destruct S as [S1 S2]. pose proof (IH (P ++ [e]) (set_ops s1 o) (D ++ [(bd_b e, bd_b nb)]) E' U2 S2) as J.
             cbn [forallb]. rewrite S1. cbn [andb].
             destruct (cs_loop false gsize me red (set_ops s1 o) (nb :: R)); auto.
             rewrite <- app_assoc in J. exact J.
          -- cbn [obind forallb]. rewrite S. auto.
        * cbn [obind]. apply (IH (P ++ [e]) s1 D E' U2 W).
  Qed.

  Lemma StInv_init : StInv [] (mkCst [] [] false false (-1) (-1) (-1) (-1) tops_empty).
  Proof.
    unfold StInv, cnt. cbn [c_in c_out c_actIn c_actOut]. rewrite !ncnt_nil.
    split; [split; [constructor|intros t; rewrite !ncnt_nil; simpl; lia]|].
    split; [split; [constructor|intros t; rewrite !ncnt_nil; simpl; lia]|].
    split; [intros inp t; rewrite !ncnt_nil; lia|]. split; [reflexivity|]. split; [reflexivity|]. split; lia.
  Qed.
  Lemma OpsInv_init : OpsInv [] tops_empty.
  Proof. constructor; simpl; auto. Qed.

  Lemma calc_ok qb : qb (allb fr tl) = sl -> forall fl tl', rl_trs fl = fr -> rl_trs tl' = tl ->
    match calcAddReductions qb false gsize me red fl tl' tops_empty with
    | Ok o => OpsInv (segs sl) o /\ forallb sg_good (segs sl) = true
    | Abort => forallb sg_good (segs sl) = false
    | _ => False
    end.
  Proof.
    intros Hq fl tl' E1 E2. unfold calcAddReductions. rewrite E1, E2. fold (allb fr tl).
    pose proof (loop_ok sl [] _ [] eq_refl StInv_init OpsInv_init) as J.
    pose proof (at_end fr tl Hpos Hone sl Hperm) as Z0.
    assert (Z1 : allb fr tl = [] -> sl = []) by (intros Q; apply Permutation_nil; rewrite <- Q; exact Hperm).
    revert Z1 Hq. generalize (allb fr tl). intros bl Z1 Hq. destruct bl as [|b bl].
    - rewrite (Z1 eq_refl). simpl. split; [apply OpsInv_init|auto].
    - rewrite Hq.
      destruct (cs_loop false gsize me red (mkCst [] [] false false (-1) (-1) (-1) (-1) tops_empty) sl) as [s| | | |]; auto.
      cbn [obind]. destruct J as [J1 [J2 J3]]. destruct J1 as [[I1 I2] [[O1 O2] _]].
      assert (c_in s = []).
      { destruct (c_in s) as [|t g]; auto. pose proof (proj1 (I2 t) (or_introl eq_refl)) as X. rewrite Z0 in X. lia. }
      assert (c_out s = []).
      { destruct (c_out s) as [|t g]; auto. pose proof (proj1 (O2 t) (or_introl eq_refl)) as X. rewrite Z0 in X. lia. }
      rewrite H, H0. cbn [cassert]. auto.
  Qed.
End Run.
