(* Executing the actions of a reduction by messages, on one process. *)
From Coq Require Import ZArith List Bool Lia ZifyBool ZifyNat Sorted.
From Verif Require Import Base Model_Space Model_Mem Model_Transition Model_Action Model_ActionTrans Model_ActionExec Model_ActionExec2.
From Verif Require Import Spec_Action Spec_ActionTrans Spec_Async Spec_Reduce.
From Verif Require Import Proof_Type Proof_Comb3 Proof_Comb4 Proof_Comb5 Proof_Async1 Proof_Async2 Proof_Async3.
Import ListNotations.
Open Scope Z_scope.

Definition others (me : Z) (g : list Z) : list Z := filter (fun x => negb (x =? me)) g.
Definition memb (me : Z) (g : list Z) : bool := existsb (fun x => x =? me) g.

Lemma memb_in me g : memb me g = true <-> In me g.
Proof. unfold memb. rewrite existsb_exists. split; [intros (x & H & E); replace me with x by lia; auto|intros H; exists me; split; auto; lia]. Qed.
Lemma memb_not me g : memb me g = false <-> ~ In me g.
Proof. rewrite <- memb_in. destruct (memb me g); split; congruence. Qed.
Lemma others_in me g x : In x (others me g) <-> In x g /\ x <> me.
Proof. unfold others. rewrite filter_In. split; intros [H1 H2]; split; auto; lia. Qed.
Lemma others_nodup me g : NoDup g -> NoDup (others me g).
Proof. apply NoDup_filter. Qed.
Lemma others_all me g : ~ In me g -> others me g = g.
Proof.
  induction g as [|x g IH]; intros H; auto. simpl. destruct (x =? me) eqn:E; simpl.
  - exfalso. apply H. left. lia.
  - f_equal. apply IH. intros I. apply H. right. auto.
Qed.
Lemma others_len me g : NoDup g -> In me g -> (length g = 1 + length (others me g))%nat.
Proof.
  induction 1 as [|x g Hx Hg IH]; intros H; [destruct H|]. unfold others in *. cbn [filter]. destruct (x =? me) eqn:E; cbn [negb length].
  - pose proof (others_all me g) as O. unfold others in O. rewrite O; auto. replace me with x by lia. auto.
  - destruct H as [H|H]; [lia|]. specialize (IH H). lia.
Qed.

(* ---- execution ---- *)
Section Exec.
  Variable cx : actx.
  Variable c : Z.
  Let es := cx_es cx.
  Let n := c * es.

  Lemma exec_send buf t s : exec_i (send_i cx buf c t) s =
    Some (mkP (p_mem s) (p_in s) (fun ch => if on ch (Some (Peer t)) then p_out s ch ++ rdb (p_mem s) buf n else p_out s ch)).
  Proof. unfold exec_i, send_i. cbn [i_in i_take length]. change (Z.of_nat 0 <? 0) with false. reflexivity. Qed.

  Lemma exec_sends buf ts : forall s, exists s', exec_is (map (fun t => send_i cx buf c t) ts) s = Some s' /\
    p_mem s' = p_mem s /\ (forall ch, p_in s' ch = p_in s ch) /\
    (forall ch, p_out s' ch = p_out s ch ++ flat_map (fun t => if on ch (Some (Peer t)) then rdb (p_mem s) buf n else []) ts).
  Proof.
    induction ts as [|t ts IH]; intros s.
    - exists s. split; auto. split; auto. split; auto. intros ch. simpl. rewrite app_nil_r. auto.
    - cbn [map exec_is]. rewrite exec_send. set (s1 := mkP _ _ _).
      destruct (IH s1) as (s' & E & E1 & E2 & E3).
      exists s'. split; [exact E|]. split; [exact E1|]. split; [exact E2|].
      intros ch. rewrite E3. subst s1. cbn [p_out p_mem flat_map]. destruct (on ch (Some (Peer t))); [rewrite <- app_assoc|]; reflexivity.
  Qed.

  Lemma flat_peer (v : list Z) ts q : NoDup ts -> flat_map (fun t => if on (Peer q) (Some (Peer t)) then v else []) ts = if memb q ts then v else [].
  Proof.
    induction 1 as [|t ts Ht Hts IH]; auto. cbn [flat_map memb existsb]. rewrite IH. unfold on.
    destruct (chan_eq_dec (Peer q) (Peer t)) as [E|E].
    - injection E as ->. rewrite Z.eqb_refl. simpl. apply memb_not in Ht. rewrite Ht, app_nil_r. auto.
    - destruct (t =? q) eqn:E'; [exfalso; apply E; f_equal; lia|]. simpl. auto.
  Qed.

  (* receives to consecutive places *)
  Fixpoint recvs (a : Z) (ts : list Z) : list instr :=
    match ts with [] => [] | t :: ts' => recv_i cx a c t :: recvs (a + n) ts' end.

  Hypothesis n0 : 0 < n.

  Lemma exec_recvs ts : NoDup ts -> forall a s, (forall t, In t ts -> n <= Z.of_nat (length (p_in s (Peer t)))) ->
    exists s', exec_is (recvs a ts) s = Some s' /\ (forall ch, p_out s' ch = p_out s ch) /\
      (forall ch, ~ (exists t, In t ts /\ ch = Peer t) -> p_in s' ch = p_in s ch) /\
      (forall t, In t ts -> p_in s' (Peer t) = skipn (bytes n) (p_in s (Peer t))) /\
      (forall x, ~ region a (n * Z.of_nat (length ts)) x -> p_mem s' x = p_mem s x) /\
      (forall k t, nth_error ts k = Some t -> rdb (p_mem s') (a + n * Z.of_nat k) n = firstn (bytes n) (p_in s (Peer t))).
  Proof.
    induction 1 as [|t ts Ht Hts IH]; intros a s Hl.
    - exists s. split; auto. split; auto. split; auto. split; [intros t []|]. split; auto. intros k t H. destruct k; discriminate.
    - cbn [recvs exec_is]. assert (L := Hl t (or_introl eq_refl)).
      assert (E0 : exec_i (recv_i cx a c t) s = Some (mkP (mwrite (p_mem s) a (firstn (bytes n) (p_in s (Peer t))))
          (fun ch => if on ch (Some (Peer t)) then skipn (bytes n) (p_in s ch) else p_in s ch) (p_out s))).
      { unfold exec_i, recv_i. cbn [i_in i_take]. fold es n. destruct (_ <? _) eqn:E; [lia|]. reflexivity. }
      rewrite E0. set (v := firstn (bytes n) (p_in s (Peer t))).
      assert (Lv : Z.of_nat (length v) = n) by (unfold v; rewrite firstn_length; unfold bytes; lia).
      set (s1 := mkP _ _ _). destruct (IH (a + n) s1) as (s' & E & E1 & E2 & E3 & E4 & E5).
      { intros u Hu. subst s1. cbn [p_in]. unfold on. destruct (chan_eq_dec (Peer u) (Peer t)) as [Eq|Eq]; [injection Eq as ->; tauto|]. apply Hl. right. auto. }
      exists s'. split; auto. split; [auto|]. split; [|split; [|split]].
      + intros ch Hch. rewrite E2 by (intros (u & Hu & ->); apply Hch; exists u; split; auto; right; auto).
        subst s1. cbn [p_in]. unfold on. destruct (chan_eq_dec ch (Peer t)) as [->|]; auto. exfalso. apply Hch. exists t. split; auto. left. auto.
      + intros u [<-|Hu].
        * rewrite E2 by (intros (u & Hu & Eq); injection Eq as <-; tauto). subst s1. cbn [p_in]. unfold on.
          destruct (chan_eq_dec (Peer t) (Peer t)); [auto|congruence].
        * rewrite E3 by auto. subst s1. cbn [p_in]. unfold on. destruct (chan_eq_dec (Peer u) (Peer t)) as [Eq|]; auto. injection Eq as ->. tauto.
      + intros x Hx. rewrite E4.
        * subst s1. cbn [p_mem]. apply mwrite_keep. rewrite Lv. unfold region in *. cbn [length] in Hx. nia.
        * unfold region in *. cbn [length] in Hx. nia.
      + intros k u Hk. destruct k as [|k]; cbn [nth_error] in Hk.
        * injection Hk as ->. rewrite Z.mul_0_r, Z.add_0_r. rewrite (rdb_ext _ (p_mem s1)).
          -- subst s1. cbn [p_mem]. unfold rdb. rewrite mread_mwrite_same; auto. unfold bytes. lia.
          -- intros x Hx. apply E4. unfold region in *. lia.
        * assert (Iu : In u ts) by (eapply nth_error_In; eauto). replace (a + n * Z.of_nat (S k)) with (a + n + n * Z.of_nat k) by lia. rewrite (E5 k u Hk).
          subst s1. cbn [p_in]. unfold on. destruct (chan_eq_dec (Peer u) (Peer t)) as [Eq|]; auto. injection Eq as ->. tauto.
  Qed.

  Variable T : dtype.
  Variable r : redop.
  Hypothesis szd : Sized T es r c.

  (* local reductions *)
  Lemma exec_lreds to ass : (forall a, In a ass -> apart (region a n) (region to n)) -> forall s,
    exists s', exec_is (map (fun a => localreduce_i cx T r a to c) ass) s = Some s' /\
      (forall ch, p_out s' ch = p_out s ch) /\ (forall ch, p_in s' ch = p_in s ch) /\
      (forall x, ~ region to n x -> p_mem s' x = p_mem s x) /\
      rdb (p_mem s') to n = fold_left (dt_red T r c) (map (fun a => rdb (p_mem s) a n) ass) (rdb (p_mem s) to n).
  Proof.
    induction ass as [|a ass IH]; intros Hap s.
    - exists s. repeat split; auto.
    - cbn [map exec_is].
      set (v := dt_red T r c (rdb (p_mem s) to n) (rdb (p_mem s) a n)).
      assert (Lv : Z.of_nat (length v) = n) by (apply szd; apply rdb_length; lia).
      assert (E0 : exec_i (localreduce_i cx T r a to c) s = Some (mkP (mwrite (p_mem s) to v) (p_in s) (p_out s))).
      { unfold exec_i, localreduce_i, local_i. cbn [i_in i_take length]. change (Z.of_nat 0 <? 0) with false. reflexivity. }
      rewrite E0. set (s1 := mkP _ _ _). destruct (IH (fun b Hb => Hap b (or_intror Hb)) s1) as (s' & E & E1 & E2 & E3 & E4).
      exists s'. split; auto. split; auto. split; auto. split.
      + intros x Hx. rewrite E3 by auto. subst s1. cbn [p_mem]. apply mwrite_keep. rewrite Lv. auto.
      + rewrite E4. cbn [fold_left map]. f_equal.
        * apply map_ext_in. intros b Hb. apply rdb_ext. intros x Hx. subst s1. cbn [p_mem]. apply mwrite_keep. rewrite Lv.
          apply (Hap b (or_intror Hb)). auto.
        * subst s1. cbn [p_mem]. fold v. unfold rdb. rewrite mread_mwrite_same; auto. unfold bytes. lia.
  Qed.

  Fixpoint places (a : Z) (ts : list Z) : list Z := match ts with [] => [] | _ :: ts' => a :: places (a + n) ts' end.

  Lemma places_in ts : forall a x, In x (places a ts) -> exists k t, nth_error ts k = Some t /\ x = a + n * Z.of_nat k.
  Proof.
    induction ts as [|t ts IH]; intros a x H; [destruct H|]. destruct H as [<-|H].
    - exists 0%nat, t. split; auto. lia.
    - destruct (IH _ _ H) as (k & u & E & ->). exists (S k), u. split; auto. lia.
  Qed.
  Lemma places_region ts a x : In x (places a ts) -> forall y, region x n y -> region a (n * Z.of_nat (length ts)) y.
  Proof.
    intros H y Hy. destruct (places_in _ _ _ H) as (k & t & E & ->). assert (k < length ts)%nat by (apply nth_error_Some; congruence).
    unfold region in *. nia.
  Qed.
  Lemma places_map {B} (f : Z -> B) (g : Z -> B) ts : forall a, (forall k t, nth_error ts k = Some t -> f (a + n * Z.of_nat k) = g t) ->
    map f (places a ts) = map g ts.
  Proof.
    induction ts as [|t ts IH]; intros a H; auto. cbn [places map]. f_equal.
    - rewrite <- (H 0%nat t eq_refl). f_equal. lia.
    - apply IH. intros k u Hk. rewrite <- (H (S k) u Hk). f_equal. lia.
  Qed.

  (* the reduction, on a process which does it *)
  Definition here_instrs (me from to base : Z) (ins : list Z) : list instr :=
    let ts := others me ins in
    recvs base ts ++
    match ins with
    | [] => [init_i T r to c]
    | _ =>
        if memb me ins then (if from =? to then [] else [copy_i cx from to c]) ++ map (fun a => localreduce_i cx T r a to c) (places base ts)
        else copy_i cx base to c :: map (fun a => localreduce_i cx T r a to c) (tl (places base ts))
    end.

  Lemma exec_local w s : exec_i (local_i w) s = Some (mkP (w (p_mem s)) (p_in s) (p_out s)).
  Proof. unfold exec_i, local_i. cbn [i_in i_take length]. change (Z.of_nat 0 <? 0) with false. reflexivity. Qed.

  Lemma here_exec me from to base ins s : NoDup ins ->
    (forall t, In t (others me ins) -> n <= Z.of_nat (length (p_in s (Peer t)))) ->
    (from = to \/ apart (region from n) (region to n)) ->
    (let tmp := region base (n * Z.of_nat (length (others me ins))) in apart tmp (region from n) /\ apart tmp (region to n)) ->
    let val t := if t =? me then rdb (p_mem s) from n else firstn (bytes n) (p_in s (Peer t)) in
    exists s', exec_is (here_instrs me from to base ins) s = Some s' /\
      (forall ch, p_out s' ch = p_out s ch) /\
      (forall ch, ~ (exists t, In t (others me ins) /\ ch = Peer t) -> p_in s' ch = p_in s ch) /\
      (forall t, In t (others me ins) -> p_in s' (Peer t) = skipn (bytes n) (p_in s (Peer t))) /\
      (forall x, ~ region to n x -> ~ region base (n * Z.of_nat (length (others me ins))) x -> p_mem s' x = p_mem s x) /\
      rdb (p_mem s') to n = reduce_all T r c (map val (first_me me ins)).
  Proof.
    intros HN Hl Hft [Hb1 Hb2] val. remember (others me ins) as ts eqn:Ets.
    assert (HN' : NoDup ts) by (rewrite Ets; apply others_nodup; auto).
    destruct (exec_recvs ts HN' base s Hl) as (s1 & X & X1 & X2 & X3 & X4 & X5).
    unfold here_instrs. rewrite <- Ets, exec_is_app, X.
    assert (Hval : forall t, In t ts -> firstn (bytes n) (p_in s (Peer t)) = val t).
    { intros t Ht. unfold val. rewrite Ets in Ht. apply others_in in Ht. destruct (t =? me) eqn:E; [lia|auto]. }
    assert (Hfrom : rdb (p_mem s1) from n = rdb (p_mem s) from n).
    { apply rdb_ext. intros x Hx. apply X4. intros H. exact (Hb1 x H Hx). }
    assert (Hpl : forall s2, (forall x, ~ region to n x -> p_mem s2 x = p_mem s1 x) -> map (fun a => rdb (p_mem s2) a n) (places base ts) = map val ts).
    { intros s2 H2. apply places_map. intros k t Hk. rewrite (rdb_ext _ (p_mem s1)).
      - rewrite (X5 k t Hk). apply Hval. eapply nth_error_In; eauto.
      - intros x Hx. apply H2. intros Ht. refine (Hb2 x _ Ht).
        assert (k < length ts)%nat by (apply nth_error_Some; congruence). unfold region in *. nia. }
    assert (Hap : forall a, In a (places base ts) -> apart (region a n) (region to n)).
    { intros a Ha x Hx. apply Hb2. eapply places_region; eauto. }
    assert (Ecopy : forall a st, Z.of_nat (length (rdb (p_mem st) a n)) = n) by (intros; apply rdb_length; lia).
    destruct ins as [|i0 ins0] eqn:Ei.
    - (* no input *)
      cbn [exec_is]. unfold init_i. rewrite exec_local.
      eexists. split; [reflexivity|]. cbn [p_mem p_in p_out].
      assert (Li : Z.of_nat (length (dt_init T r c)) = n) by apply szd.
      split; [auto|]. split; [auto|]. split; [auto|]. split.
      + intros x H1 H2. rewrite mwrite_keep by (rewrite Li; auto). auto.
      + simpl. unfold rdb. rewrite mread_mwrite_same; auto. unfold bytes. lia.
    - rewrite <- Ei in *. destruct (memb me ins) eqn:Em.
      + (* own input first *)
        assert (Hfm : first_me me ins = me :: ts) by (unfold first_me; unfold memb in Em; rewrite Em, Ets; auto).
        assert (Hvm : val me = rdb (p_mem s) from n) by (unfold val; rewrite Z.eqb_refl; auto).
        assert (HC : exists s2, exec_is (if from =? to then [] else [copy_i cx from to c]) s1 = Some s2 /\
            (forall ch, p_out s2 ch = p_out s1 ch) /\ (forall ch, p_in s2 ch = p_in s1 ch) /\ (forall x, ~ region to n x -> p_mem s2 x = p_mem s1 x) /\
            rdb (p_mem s2) to n = val me).
        { destruct (from =? to) eqn:Eft.
          - exists s1. assert (from = to) by lia. subst to. rewrite Hvm, <- Hfrom. repeat split; auto.
          - cbn [exec_is]. unfold copy_i. rewrite exec_local. eexists. split; [reflexivity|]. cbn [p_mem p_in p_out]. fold es n.
            split; auto. split; auto. split.
            + intros x Hx. apply mwrite_keep. rewrite Ecopy. auto.
            + rewrite Hfrom, Hvm. unfold rdb at 1. rewrite mread_mwrite_same; auto. pose proof (Ecopy from s). unfold bytes. lia. }
        destruct HC as (s2 & Y & Y1 & Y2 & Y3 & Y4).
        destruct (exec_lreds to (places base ts) Hap s2) as (s3 & V & V1 & V2 & V3 & V4).
        exists s3. rewrite exec_is_app, Y, V. split; auto. split; [intros; rewrite V1, Y1; auto|].
        split; [intros; rewrite V2, Y2; auto|]. split; [intros; rewrite V2, Y2; auto|]. split.
        * intros x H1 H2. rewrite V3, Y3 by auto. auto.
        * rewrite V4, Y4, Hfm, (Hpl s2 Y3). reflexivity.
      + (* the first input received *)
        assert (Hts : ts = ins) by (rewrite Ets; apply others_all, memb_not; auto).
        assert (Hfm : first_me me ins = ins) by (unfold first_me; unfold memb in Em; rewrite Em; auto).
        assert (Hpe : places base ts = base :: places (base + n) ins0) by (rewrite Hts, Ei; reflexivity).
        assert (Hb0 : rdb (p_mem s1) base n = val i0).
        { rewrite <- (Hval i0) by (rewrite Hts, Ei; left; auto). rewrite <- (X5 0%nat i0) by (rewrite Hts, Ei; reflexivity). f_equal. lia. }
        cbn [exec_is]. unfold copy_i. rewrite exec_local. fold es n. set (s2 := mkP _ _ _).
        assert (Y3 : forall x, ~ region to n x -> p_mem s2 x = p_mem s1 x) by (intros x Hx; subst s2; cbn [p_mem]; apply mwrite_keep; rewrite Ecopy; auto).
        assert (Y4 : rdb (p_mem s2) to n = val i0).
        { subst s2. cbn [p_mem]. rewrite Hb0. unfold rdb at 1. rewrite mread_mwrite_same; auto.
          rewrite <- Hb0. pose proof (Ecopy base s1). unfold bytes. lia. }
        destruct (exec_lreds to (tl (places base ts)) ltac:(intros a Ha; apply Hap; rewrite Hpe in *; right; exact Ha) s2) as (s3 & V & V1 & V2 & V3 & V4).
        exists s3. rewrite V. split; auto. split; [intros; rewrite V1; subst s2; cbn [p_out]; auto|].
        split; [intros; rewrite V2; subst s2; cbn [p_in]; auto|]. split; [intros; rewrite V2; subst s2; cbn [p_in]; auto|]. split.
        * intros x H1 H2. rewrite V3, Y3 by auto. auto.
        * specialize (Hpl s2 Y3). rewrite Hpe, Hts, Ei in Hpl. cbn [map] in Hpl. apply (f_equal (@tl (list Z))) in Hpl. cbn [tl] in Hpl.
          rewrite V4, Y4, Hfm, Hpe, Ei. cbn [tl map reduce_all]. rewrite Hpl. reflexivity.
  Qed.
End Exec.
