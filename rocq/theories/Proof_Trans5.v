(* 1d transitions: agreement between processes; transitions from filtered lists *)
From Coq Require Import ZArith List Bool Lia Permutation Sorted ZifyBool ZifyNat.
From Verif Require Import Base ListFacts Model_Space Spec_Space Model_RangeList Spec_RangeList Proof_RangeList Proof_RangeList4 Proof_RangeList5
  Model_Partitioner Spec_Partitioner Proof_Partitioner Proof_Partitioner2 Proof_Partitioner3 Model_Group Proof_Group Proof_Group3 Model_Transition Spec_Transition
  Proof_Trans1 Proof_Trans2 Proof_Trans3 Proof_Trans4.
Import ListNotations.
Open Scope Z_scope.

Lemma filter_flat_map {A B} (P : B -> bool) (f : A -> list B) l : filter P (flat_map f l) = flat_map (fun a => filter P (f a)) l.
Proof. induction l as [|a l IH]; simpl; auto. rewrite filter_app, IH. auto. Qed.
Lemma map_flat_map {A B C} (h : B -> C) (f : A -> list B) l : map h (flat_map f l) = flat_map (fun a => map h (f a)) l.
Proof. induction l as [|a l IH]; simpl; auto. rewrite map_app, IH. auto. Qed.
Lemma flat_map_eq {A B} (f g : A -> list B) l : (forall a, In a l -> f a = g a) -> flat_map f l = flat_map g l.
Proof. induction l as [|a l IH]; intros H; simpl; auto. rewrite H by (left; auto). rewrite IH; auto. intros; apply H; right; auto. Qed.
Lemma filter_map_comm {A B} (h : A -> B) (P : B -> bool) l : filter P (map h l) = map h (filter (fun a => P (h a)) l).
Proof. induction l as [|a l IH]; simpl; auto. destruct (P (h a)); simpl; rewrite IH; auto. Qed.

Lemma filter_comm {A} (P Q : A -> bool) l : filter P (filter Q l) = filter Q (filter P l).
Proof. induction l as [|a l IH]; simpl; auto. destruct (P a) eqn:E1, (Q a) eqn:E2; simpl; rewrite ?E1, ?E2, IH; auto. Qed.

Lemma filter_eq_one g t : NoDup g -> filter (fun x => x =? t) g = if memb t g then [t] else [].
Proof.
  induction g as [|a g IH]; intros ND; auto. inversion ND as [|? ? N1 N2]; subst. simpl. rewrite (Z.eqb_sym t a). destruct (a =? t) eqn:E; simpl.
  - rewrite IH by auto. assert (a = t) by lia. subst. assert (M : memb t g = false) by (destruct (memb t g) eqn:Q; auto; apply memb_in in Q; tauto).
    rewrite M. auto.
  - apply IH; auto.
Qed.

(* the closed form for two processes *)
Lemma send_recv fr tl gsize p q S op oq red red' :
  OpsInv fr tl gsize p red S op -> OpsInv fr tl gsize q red' S oq -> sent_to op q = expected_from oq p.
Proof.
  intros [_ _ V2 _ _ _ _ _ _] [_ _ _ W3 _ _ _ _ _].
  assert (E1 : sent_to op q = map fst (filter (fun e => snd e =? q) (map (fun x => (sd_box x, sd_to x)) (tp_send op)))).
  { unfold sent_to. rewrite filter_map_comm, map_map. reflexivity. }
  assert (E2 : expected_from oq p = map fst (filter (fun e => snd e =? p) (map (fun x => (rc_box x, rc_from x)) (tp_recv oq)))).
  { unfold expected_from. rewrite filter_map_comm, map_map. reflexivity. }
  rewrite E1, E2, V2, W3, !filter_flat_map, !map_flat_map. apply flat_map_eq. intros s _.
  unfold sg_send, sg_recv. destruct (owners gsize fr (fst s)) as [|i [|? ?]]; auto.
  destruct (i =? p) eqn:Eip.
  - rewrite filter_map_comm, map_map. cbn [fst snd]. rewrite filter_comm, filter_eq_one; [|apply sset_NoDup, owners_sset].
    assert (i = p) by lia. subst i. destruct (memb q (owners gsize tl (fst s))) eqn:M; simpl.
    + destruct (q =? p) eqn:Eqp; simpl.
      * assert ((p =? q) = true) by lia. rewrite H. auto.
      * assert ((p =? q) = false) by lia. rewrite H. simpl. rewrite Z.eqb_refl. auto.
    + rewrite andb_false_r. auto.
  - destruct (negb (i =? q) && memb q (owners gsize tl (fst s))); simpl; auto. rewrite Eip. auto.
Qed.

Lemma red_agree fr tl gsize p q S op oq red :
  OpsInv fr tl gsize p red S op -> OpsInv fr tl gsize q red S oq ->
  with_member q (reductions gsize op) = with_member p (reductions gsize oq).
Proof.
  intros [_ _ _ _ V4 _ _ _ _] [_ _ _ _ W4 _ _ _ _].
  change (reductions gsize op) with (map (res_red gsize (tp_groups op)) (tp_red op)).
  change (reductions gsize oq) with (map (res_red gsize (tp_groups oq)) (tp_red oq)). rewrite V4, W4. unfold with_member.
  rewrite !filter_flat_map. apply flat_map_eq. intros s _. unfold sg_red.
  assert (K : forall (a b : bool) (e : box * redop * option (list Z) * option (list Z)) (fp fq : _ -> bool), fp e = a -> fq e = b ->
     filter fq (if a then [e] else []) = filter fp (if b then [e] else [])).
  { intros a b e fp fq H1 H2. destruct a, b; simpl; rewrite ?H1, ?H2; auto. }
  destruct (owners gsize fr (fst s)) as [|i [|? ?]]; auto; apply K; reflexivity.
Qed.

(* ---------- filtered lists ---------- *)

Section Filtered.
  Variables (sp : space) (gsize : Z) (fl tl fl' tl' : rlist) (me : Z).
  Hypothesis G : Good1d sp gsize fl tl.
  Hypothesis G' : Good1d sp gsize fl' tl'.
  Let L (inp : bool) := if inp then rl_trs fl else rl_trs tl.
  Let L' (inp : bool) := if inp then rl_trs fl' else rl_trs tl'.
  (* positions and process of ranges *)
  Definition same (a b : trg) := t_task a = t_task b /\ tf a = tf b /\ tt a = tt b.
  Hypothesis Hsub : forall inp a, In a (L' inp) -> exists b, In b (L inp) /\ same a b.
  Hypothesis Hkeep : forall inp a x, In a (L inp) -> tf a <= x < tt a -> (cov (L true) me x = 1 \/ cov (L false) me x = 1) ->
    exists b, In b (L' inp) /\ same a b.

  Definition act x := cov (L true) me x = 1 \/ cov (L false) me x = 1.

  Lemma cov_iff inp t x : cov (L inp) t x = 1 <-> exists a, In a (L inp) /\ t_task a = t /\ tf a <= x < tt a.
  Proof.
    pose proof (g_one sp gsize fl tl G inp t x) as Q. change (cov (L inp) t x <= 1) in Q. split.
    - intros H. destruct (ncnt_positive (has t x) (L inp)) as [a [A1 A2]].
      { unfold cov in H. fold (ncnt (has t x) (L inp)) in H. lia. }
      exists a. unfold has in A2. split; auto. lia.
    - intros [a [A1 [A2 A3]]]. assert (1 <= ncnt (has t x) (L inp)) by (apply (ncnt_in _ _ a); auto; unfold has; lia).
      unfold cov in *. fold (ncnt (has t x) (L inp)) in *. lia.
  Qed.
  Lemma cov_iff' inp t x : cov (L' inp) t x = 1 <-> exists a, In a (L' inp) /\ t_task a = t /\ tf a <= x < tt a.
  Proof.
    pose proof (g_one sp gsize fl' tl' G' inp t x) as Q. change (cov (L' inp) t x <= 1) in Q. split.
    - intros H. destruct (ncnt_positive (has t x) (L' inp)) as [a [A1 A2]].
      { unfold cov in H. fold (ncnt (has t x) (L' inp)) in H. lia. }
      exists a. unfold has in A2. split; auto. lia.
    - intros [a [A1 [A2 A3]]]. assert (1 <= ncnt (has t x) (L' inp)) by (apply (ncnt_in _ _ a); auto; unfold has; lia).
      unfold cov in *. fold (ncnt (has t x) (L' inp)) in *. lia.
  Qed.

  Lemma cov_le inp t x : cov (L' inp) t x = 1 -> cov (L inp) t x = 1.
  Proof.
    rewrite cov_iff, cov_iff'. intros [a [A1 [A2 A3]]]. destruct (Hsub inp a A1) as [b [B1 [B2 [B3 B4]]]]. exists b. split; auto. lia.
  Qed.
  Lemma cov_same inp t x : act x -> cov (L' inp) t x = cov (L inp) t x.
  Proof.
    intros H. assert (K : cov (L' inp) t x = 1 <-> cov (L inp) t x = 1).
    { split; [apply cov_le|]. rewrite cov_iff, cov_iff'. intros [a [A1 [A2 A3]]]. destruct (Hkeep inp a x A1 A3 H) as [b [B1 [B2 [B3 B4]]]].
      exists b. split; auto. lia. }
    pose proof (g_one sp gsize fl tl G inp t x) as Q. change (cov (L inp) t x <= 1) in Q.
    pose proof (g_one sp gsize fl' tl' G' inp t x) as Q'. change (cov (L' inp) t x <= 1) in Q'.
    assert (0 <= cov (L inp) t x /\ 0 <= cov (L' inp) t x) by (unfold cov; lia). lia.
  Qed.
  Lemma act_same x : act x <-> cov (L' true) me x = 1 \/ cov (L' false) me x = 1.
  Proof.
    split.
    - intros H. rewrite !cov_same by auto. exact H.
    - intros [H|H]; [left|right]; apply cov_le; auto.
  Qed.

  Variables sl sl' : list border.
  Hypothesis P : Permutation (allb (rl_trs fl) (rl_trs tl)) sl.
  Hypothesis S : StronglySorted ble sl.
  Hypothesis P' : Permutation (allb (rl_trs fl') (rl_trs tl')) sl'.
  Hypothesis S' : StronglySorted ble sl'.

  Let ps := map bd_b sl.
  Let ps' := map bd_b sl'.

  Lemma pos_iff p : In p ps <-> exists inp a, In a (L inp) /\ (p = tf a \/ p = tt a).
  Proof.
    split.
    - intros H. apply in_map_iff in H. destruct H as [b [<- Hb]]. destruct (in_border _ _ sl P b Hb) as [a [A1 [_ [_ [_ A5]]]]].
      exists (bd_isInput b), (fst a). split; [apply (ann_in (rl_trs fl) (rl_trs tl)); auto|]. destruct (bd_isStart b); auto.
    - intros [inp [a [A1 [->| ->]]]]; apply (border_pos fl tl sl P inp a A1).
  Qed.
  Lemma pos_iff' p : In p ps' <-> exists inp a, In a (L' inp) /\ (p = tf a \/ p = tt a).
  Proof.
    split.
    - intros H. apply in_map_iff in H. destruct H as [b [<- Hb]]. destruct (in_border _ _ sl' P' b Hb) as [a [A1 [_ [_ [_ A5]]]]].
      exists (bd_isInput b), (fst a). split; [apply (ann_in (rl_trs fl') (rl_trs tl')); auto|]. destruct (bd_isStart b); auto.
    - intros [inp [a [A1 [->| ->]]]]; apply (border_pos fl' tl' sl' P' inp a A1).
  Qed.

  Lemma segsZ_iff l a b : StronglySorted Z.le l -> (In (a, b) (segsZ l) <-> a < b /\ In a l /\ In b l /\ forall p, In p l -> p <= a \/ b <= p).
  Proof.
    intros So. split; [apply segsZ_in; auto|]. intros [H1 [H2 [H3 H4]]].
    destruct (sorted_first l a So H2) as [h [r [E Hh]]]. subst l.
    destruct (segsZ_hit b a r h So Hh H3 H1) as [u [v [Q1 Q2]]].
    destruct (segsZ_in _ _ _ So Q1) as [J1 [J2 [J3 J4]]].
    pose proof (H4 u J2). pose proof (H4 v J3). pose proof (J4 a H2). pose proof (J4 b H3).
    assert (u = a) by lia. assert (v = b) by lia. subst. auto.
  Qed.

  (* an own range around an active index is in both *)
  Lemma act_range x : act x -> exists lo hi, lo <= x < hi /\ In lo ps /\ In hi ps /\ In lo ps' /\ In hi ps' /\ forall y, lo <= y < hi -> act y.
  Proof.
    intros H. assert (K : exists inp a, In a (L inp) /\ t_task a = me /\ tf a <= x < tt a).
    { destruct H as [H|H]; apply cov_iff in H; destruct H as [a Ha]; eauto. }
    destruct K as [inp [a [A1 [A2 A3]]]]. destruct (Hkeep inp a x A1 A3 H) as [b [B1 [B2 [B3 B4]]]].
    exists (tf a), (tt a). split; [auto|]. rewrite !pos_iff, !pos_iff'. split; [exists inp, a; auto|]. split; [exists inp, a; auto|].
    split; [exists inp, b; auto|]. split; [exists inp, b; auto|].
    intros y Hy. destruct inp; [left|right]; apply cov_iff; exists a; auto.
  Qed.

  Lemma pos_sub p : In p ps' -> In p ps.
  Proof.
    rewrite pos_iff, pos_iff'. intros [inp [a [A1 A2]]]. destruct (Hsub inp a A1) as [b [B1 [B2 [B3 B4]]]]. exists inp, b. split; auto. lia.
  Qed.
  Lemma pos_keep lo hi p : (forall y, lo <= y < hi -> act y) -> lo < p < hi -> In p ps -> In p ps'.
  Proof.
    intros Hact Hp. rewrite pos_iff, pos_iff'. intros [inp [a [A1 A2]]].
    pose proof (g_pos sp gsize fl tl G inp a A1) as Hlt.
    assert (K : exists b, In b (L' inp) /\ same a b).
    { destruct A2 as [-> | ->].
      - apply (Hkeep inp a (tf a) A1); [lia|]. apply Hact; lia.
      - apply (Hkeep inp a (tt a - 1) A1); [lia|]. apply Hact; lia. }
    destruct K as [b [B1 [B2 [B3 B4]]]]. exists inp, b. split; auto. lia.
  Qed.

  Lemma seg_same a b : act a -> (In (a, b) (segs sl) <-> In (a, b) (segs sl')).
  Proof.
    intros Ha. rewrite !segs_segsZ, !segsZ_iff by (apply pos_sorted; auto). fold ps ps'.
    destruct (act_range a Ha) as [lo [hi [R1 [R2 [R3 [R4 [R5 R6]]]]]]]. split.
    - intros [H1 [H2 [H3 H4]]]. pose proof (H4 hi R3). split; auto.
      assert (Hin : forall p, lo <= p <= hi -> In p ps -> In p ps').
      { intros p Hp Hps. destruct (Z.eq_dec p lo) as [->|]; auto. destruct (Z.eq_dec p hi) as [->|]; auto. apply (pos_keep lo hi); auto. lia. }
      split; [apply Hin; auto; lia|]. split; [apply Hin; auto; lia|]. intros p Hp. apply H4, pos_sub; auto.
    - intros [H1 [H2 [H3 H4]]]. pose proof (H4 hi R5). split; auto. split; [apply pos_sub; auto|]. split; [apply pos_sub; auto|].
      intros p Hp. destruct (Z_le_dec p a); [left; lia|]. right. destruct (Z_le_dec b p); auto. exfalso.
      assert (In p ps') by (apply (pos_keep lo hi); auto; lia). specialize (H4 p H0). lia.
  Qed.

  Definition actb x := (cov (L true) me x =? 1) || (cov (L false) me x =? 1).
  Lemma actb_ok x : actb x = true <-> act x. Proof. unfold actb, act. lia. Qed.

  Lemma sorted_fst_unique (l l' : list (Z * Z)) : StronglySorted (fun s s' => fst s < fst s') l -> StronglySorted (fun s s' => fst s < fst s') l' ->
    (forall s, In s l <-> In s l') -> l = l'.
  Proof.
    intros So. revert l'. induction So as [|a l So IH F]; intros l' So' H.
    - destruct l' as [|b l']; auto. exfalso. apply (H b). left; auto.
    - destruct So' as [|b l' So' F']; [exfalso; apply (H a); left; auto|]. rewrite Forall_forall in F, F'.
      assert (a = b).
      { destruct (proj1 (H a) (or_introl eq_refl)) as [->|Ha]; auto. destruct (proj2 (H b) (or_introl eq_refl)) as [->|Hb]; auto.
        specialize (F _ Hb). specialize (F' _ Ha). lia. }
      subst b. f_equal. apply IH; auto. intros x. specialize (H x). simpl in H. split; intros Hx.
      + destruct (proj1 H (or_intror Hx)) as [->|]; auto. specialize (F _ Hx). lia.
      + destruct (proj2 H (or_intror Hx)) as [->|]; auto. specialize (F' _ Hx). lia.
  Qed.

  Lemma segs_fst_sorted l : StronglySorted ble l -> StronglySorted (fun s s' => fst s < fst s') (segs l).
  Proof.
    intros So. pose proof (sg_sorted l So) as Q. assert (Lt : forall s, In s (segs l) -> fst s < snd s) by (apply sg_lt; auto).
    revert Q Lt. generalize (segs l). induction 1 as [|a m Sm IH F]; intros Lt; constructor.
    - apply IH. intros; apply Lt; right; auto.
    - rewrite Forall_forall in *. intros x Hx. specialize (F x Hx). pose proof (Lt a (or_introl eq_refl)). lia.
  Qed.

  Lemma active_segs : filter (fun s => actb (fst s)) (segs sl) = filter (fun s => actb (fst s)) (segs sl').
  Proof.
    apply sorted_fst_unique.
    - apply filter_sorted, segs_fst_sorted; auto.
    - apply filter_sorted, segs_fst_sorted; auto.
    - intros [a b]. rewrite !filter_In. simpl. rewrite actb_ok. split; intros [H1 H2]; (split; [|auto]); apply seg_same; auto.
  Qed.

  Lemma flat_active {B} (f f' : Z * Z -> list B) : (forall s, ~ act (fst s) -> f s = [] /\ f' s = []) -> (forall s, act (fst s) -> f s = f' s) ->
    flat_map f (segs sl) = flat_map f' (segs sl').
  Proof.
    intros H1 H2.
    assert (K : forall (g : Z * Z -> list B) l, (forall s, ~ act (fst s) -> g s = []) -> flat_map g l = flat_map g (filter (fun s => actb (fst s)) l)).
    { intros g l Hg. induction l as [|s l IH]; simpl; auto. destruct (actb (fst s)) eqn:E; simpl; [rewrite IH; auto|].
      rewrite Hg, IH; auto. rewrite <- actb_ok. congruence. }
    rewrite (K f), (K f'); try (intros s Hs; apply H1; auto). rewrite active_segs. apply flat_map_eq.
    intros s Hs. apply filter_In in Hs. apply H2. apply actb_ok. tauto.
  Qed.

  Lemma own_same inp x : act x -> owners gsize (L' inp) x = owners gsize (L inp) x.
  Proof. intros H. unfold owners. apply filter_ext. intros t. rewrite cov_same; auto. Qed.

  Lemma inactive x : ~ act x -> (~ In me (owners gsize (L true) x) /\ ~ In me (owners gsize (L false) x)) /\
     (~ In me (owners gsize (L' true) x) /\ ~ In me (owners gsize (L' false) x)).
  Proof.
    intros H. 
    assert (K : forall inp, In me (owners gsize (L inp) x) -> cov (L inp) me x = 1).
    { intros inp Hin. apply owners_in in Hin. pose proof (g_one sp gsize fl tl G inp me x) as Q. change (cov (L inp) me x <= 1) in Q. lia. }
    assert (K' : forall inp, In me (owners gsize (L' inp) x) -> cov (L' inp) me x = 1).
    { intros inp Hin. apply owners_in in Hin. pose proof (g_one sp gsize fl' tl' G' inp me x) as Q. change (cov (L' inp) me x <= 1) in Q. lia. }
    repeat split; intros Q.
    - apply H. left. apply (K true); auto.
    - apply H. right. apply (K false); auto.
    - apply H. apply act_same. left. apply (K' true); auto.
    - apply H. apply act_same. right. apply (K' false); auto.
  Qed.

  Lemma memb_false t g : ~ In t g -> memb t g = false.
  Proof. intros H. destruct (memb t g) eqn:Q; auto. apply memb_in in Q. tauto. Qed.

  Variable red : redop.
  Variables o o' : tops.
  Hypothesis V : OpsInv (rl_trs fl) (rl_trs tl) gsize me red (segs sl) o.
  Hypothesis V' : OpsInv (rl_trs fl') (rl_trs tl') gsize me red (segs sl') o'.

  Lemma filtered_same :
    map lo_box (tp_local o) = map lo_box (tp_local o') /\
    map (fun x => (sd_box x, sd_to x)) (tp_send o) = map (fun x => (sd_box x, sd_to x)) (tp_send o') /\
    map (fun x => (rc_box x, rc_from x)) (tp_recv o) = map (fun x => (rc_box x, rc_from x)) (tp_recv o') /\
    reductions gsize o = reductions gsize o'.
  Proof.
    destruct V as [_ V1 V2 V3 V4 _ _ _ _]. destruct V' as [_ W1 W2 W3 W4 _ _ _ _].
    change (reductions gsize o) with (map (res_red gsize (tp_groups o)) (tp_red o)).
    change (reductions gsize o') with (map (res_red gsize (tp_groups o')) (tp_red o')).
    rewrite V1, V2, V3, V4, W1, W2, W3, W4.
    assert (Z : forall s : Z * Z, ~ act (fst s) ->
      (memb me (owners gsize (rl_trs fl) (fst s)) = false /\ memb me (owners gsize (rl_trs tl) (fst s)) = false) /\
      (memb me (owners gsize (rl_trs fl') (fst s)) = false /\ memb me (owners gsize (rl_trs tl') (fst s)) = false)).
    { intros s Hs. destruct (inactive (fst s) Hs) as [[I1 I2] [I3 I4]].
      split; split; apply memb_false; auto. }
    assert (E : forall s : BinNums.Z * BinNums.Z, act (fst s) -> owners gsize (rl_trs fl') (fst s) = owners gsize (rl_trs fl) (fst s) /\
                                         owners gsize (rl_trs tl') (fst s) = owners gsize (rl_trs tl) (fst s)).
    { intros s Hs. split; [apply (own_same true)|apply (own_same false)]; auto. }
    assert (N1 : forall i : BinNums.Z, memb me [i] = false -> (i =? me) = false) by (intros i Hi; simpl in Hi; lia).
    conjs; apply flat_active; try (intros s Hs; destruct (Z s Hs) as [[Z1 Z2] [Z3 Z4]]);
      try (intros s Hs; destruct (E s Hs) as [E1 E2]; unfold sg_local, sg_send, sg_recv, sg_red; rewrite E1, E2; reflexivity);
      unfold sg_local, sg_send, sg_recv, sg_red; rewrite ?Z1, ?Z2, ?Z3, ?Z4, ?andb_false_r; cbn [orb];
      destruct (owners gsize (rl_trs fl) (fst s)) as [|i [|? ?]], (owners gsize (rl_trs fl') (fst s)) as [|i' [|? ?]]; auto;
      rewrite ?(N1 _ Z1), ?(N1 _ Z3); auto.
  Qed.
End Filtered.
