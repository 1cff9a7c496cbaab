(* The result of the transformation, after sorting. *)
From Coq Require Import ZArith List Bool Lia ZifyBool ZifyNat Sorted Permutation.
From Verif Require Import Base Model_Space Model_Mem Model_Transition Model_Action Model_ActionTrans Model_ActionExec Model_Async.
From Verif Require Import Spec_Action Spec_ActionTrans Spec_Async Proof_Comb5 Proof_Async2.
Import ListNotations.
Open Scope Z_scope.

Lemma in_filter_round k (l : list action) a : In a (filter (in_round k) l) <-> In a l /\ a_round a = k.
Proof. rewrite filter_In. unfold in_round. split; intros [H1 H2]; split; auto; lia. Qed.

Lemma in_round_mk k r p : in_round k (mkAct r p) = (r =? k).
Proof. reflexivity. Qed.

Lemma by_round_unique x : forall y, by_round x -> by_round y ->
  (forall k, filter (in_round k) x = filter (in_round k) y) -> x = y.
Proof.
  induction x as [|a x IH]; intros y Hx Hy H.
  - destruct y as [|b y]; auto. specialize (H (a_round b)). simpl in H. unfold in_round in H at 1. rewrite Z.eqb_refl in H. discriminate.
  - destruct y as [|b y].
    { specialize (H (a_round a)). simpl in H. unfold in_round in H at 1. rewrite Z.eqb_refl in H. discriminate. }
    inversion Hx as [|? ? Hx1 Hx2]; subst. inversion Hy as [|? ? Hy1 Hy2]; subst. rewrite Forall_forall in Hx2, Hy2.
    assert (A1 : In a (b :: y)).
    { assert (I : In a (filter (in_round (a_round a)) (b :: y))) by (rewrite <- H; apply in_filter_round; split; auto; left; auto).
      apply in_filter_round in I. tauto. }
    assert (B1 : In b (a :: x)).
    { assert (I : In b (filter (in_round (a_round b)) (a :: x))) by (rewrite H; apply in_filter_round; split; auto; left; auto).
      apply in_filter_round in I. tauto. }
    assert (E : a_round a = a_round b).
    { destruct A1 as [->|A1]; auto. destruct B1 as [->|B1]; auto. specialize (Hx2 _ B1). specialize (Hy2 _ A1). lia. }
    assert (Eab : a = b).
    { specialize (H (a_round a)). assert (Ra : in_round (a_round a) a = true) by (unfold in_round; lia).
      assert (Rb : in_round (a_round a) b = true) by (unfold in_round; lia). simpl in H. rewrite Ra, Rb in H. congruence. }
    subst b. f_equal. apply IH; auto. intros k. specialize (H k). simpl in H. destruct (in_round k a); congruence.
Qed.

(* ---- the actions, with rounds ---- *)
Definition nq (q : Z) (a : action) : Z := nextq q (a_par a).
Fixpoint postsA (q : Z) (l : list action) : list action :=
  match l with
  | [] => []
  | a :: l' => match a_par a with BufRecv b c f => [mkAct 0 (MpiIrecv b c f q)] | _ => [] end ++ postsA (nq q a) l'
  end.
Fixpoint bodyA (q : Z) (l : list action) : list action :=
  match l with
  | [] => []
  | a :: l' => match a_par a with
               | BufSend b c t => [mkAct (a_round a + 1) (MpiIsend b c t q)]
               | BufRecv _ _ _ => [mkAct (a_round a + 1) (MpiWait q)]
               | Nop => [] | p => [mkAct (a_round a + 1) p] end ++ bodyA (nq q a) l'
  end.
Fixpoint waitsA (mx q : Z) (l : list action) : list action :=
  match l with
  | [] => []
  | a :: l' => match a_par a with BufSend _ _ _ => [mkAct (mx + 2) (MpiWait q)] | _ => [] end ++ waitsA mx (nq q a) l'
  end.

Definition pars (l : list action) : list apar := map a_par (filter not_nop l).

Lemma postsA_par l : forall q, map a_par (postsA q l) = posts q (pars l).
Proof.
  induction l as [|a l IH]; intros q; auto. destruct a as [r p]. unfold pars in *. cbn [postsA filter not_nop a_par]. rewrite map_app, IH.
  unfold nq. destruct p; cbn [List.map app posts not_nop a_par]; auto.
Qed.
Lemma bodyA_par l : forall q, map a_par (bodyA q l) = body q (pars l).
Proof.
  induction l as [|a l IH]; intros q; auto. destruct a as [r p]. unfold pars in *. cbn [bodyA filter not_nop a_par]. rewrite map_app, IH.
  unfold nq. destruct p; cbn [List.map app body not_nop a_par]; auto.
Qed.
Lemma waitsA_par mx l : forall q, map a_par (waitsA mx q l) = waits q (pars l).
Proof.
  induction l as [|a l IH]; intros q; auto. destruct a as [r p]. unfold pars in *. cbn [waitsA filter not_nop a_par]. rewrite map_app, IH.
  unfold nq. destruct p; cbn [List.map app waits not_nop a_par]; auto.
Qed.

Lemma postsA_round l : forall q a, In a (postsA q l) -> a_round a = 0.
Proof.
  induction l as [|x l IH]; intros q a H; [destruct H|]. simpl in H. apply in_app_or in H. destruct H as [H|H]; eauto.
  destruct (a_par x); try destruct H as [<-|[]]; try destruct H. auto.
Qed.
Lemma waitsA_round mx l : forall q a, In a (waitsA mx q l) -> a_round a = mx + 2.
Proof.
  induction l as [|x l IH]; intros q a H; [destruct H|]. simpl in H. apply in_app_or in H. destruct H as [H|H]; eauto.
  destruct (a_par x); try destruct H as [<-|[]]; try destruct H. auto.
Qed.
Lemma bodyA_round l : forall q a, In a (bodyA q l) -> exists b, In b l /\ a_round a = a_round b + 1.
Proof.
  induction l as [|x l IH]; intros q a H; [destruct H|]. simpl in H. apply in_app_or in H. destruct H as [H|H].
  - exists x. split; [left; auto|]. destruct (a_par x); try destruct H as [<-|[]]; try destruct H; auto.
  - apply IH in H. destruct H as (b & H1 & H2). exists b. split; auto. right. auto.
Qed.

Lemma SS_app (x y : list action) : by_round x -> by_round y -> (forall a b, In a x -> In b y -> a_round a <= a_round b) -> by_round (x ++ y).
Proof.
  intros Hx Hy H. induction Hx as [|a x Hx IH Ha]; simpl; auto. constructor.
  - apply IH. intros b c Hb. apply H. right. auto.
  - apply Forall_app. split; auto. apply Forall_forall. intros b Hb. apply H; auto. left. auto.
Qed.
Lemma const_sorted (x : list action) k : (forall a, In a x -> a_round a = k) -> by_round x.
Proof.
  induction x as [|a x IH]; intros H; constructor.
  - apply IH. intros b Hb. apply H. right. auto.
  - apply Forall_forall. intros b Hb. rewrite (H a), (H b); [lia|right; auto|left; auto].
Qed.
Lemma bodyA_sorted l : by_round l -> forall q, by_round (bodyA q l).
Proof.
  induction 1 as [|a l Hl IH Ha]; intros q; [constructor|]. simpl. apply SS_app; auto.
  - destruct (a_par a); repeat constructor.
  - intros x y Hx Hy. apply bodyA_round in Hy. destruct Hy as (b & Hb & ->). rewrite Forall_forall in Ha. specialize (Ha _ Hb).
    destruct (a_par a); try destruct Hx as [<-|[]]; try destruct Hx; simpl; lia.
Qed.

Lemma filter_none {A} (P : A -> bool) x : (forall a, In a x -> P a = false) -> filter P x = [].
Proof. induction x as [|a x IH]; intros H; auto. simpl. rewrite (H a) by (left; auto). apply IH. intros; apply H. right. auto. Qed.

Lemma loop_ok mx : mx + 2 < 255 -> forall l q, (forall a, In a l -> 0 <= a_round a <= mx) ->
  exists x, async_loop mx q l = Ok (x, q + Z.of_nat (length (filter is_bufmsg l))) /\
    forall k, filter (in_round k) x = filter (in_round k) (postsA q l ++ bodyA q l ++ waitsA mx q l).
Proof.
  intros Hmx. induction l as [|a l IH]; intros q Hr.
  - exists []. simpl. split; [rewrite Z.add_0_r; auto|auto].
  - destruct a as [r p]. assert (R := Hr _ (or_introl eq_refl)). simpl in R.
    assert (Hr' : forall b, In b l -> 0 <= a_round b <= mx) by (intros; apply Hr; right; auto).
    destruct (IH (nextq q p) Hr') as (x & E & H). clear IH.
    assert (P0 : forall k, k <> 0 -> filter (in_round k) (postsA (nextq q p) l) = []).
    { intros k Hk. apply filter_none. intros b Hb. apply postsA_round in Hb. unfold in_round. lia. }
    assert (B0 : forall k, k = 0 \/ k = mx + 2 -> filter (in_round k) (bodyA (nextq q p) l) = []).
    { intros k Hk. apply filter_none. intros b Hb. apply bodyA_round in Hb. destruct Hb as (c & Hc & E'). apply Hr' in Hc. unfold in_round. lia. }
    assert (W0 : forall k, k <> mx + 2 -> filter (in_round k) (waitsA mx (nextq q p) l) = []).
    { intros k Hk. apply filter_none. intros b Hb. apply waitsA_round in Hb. unfold in_round. lia. }
    cbn [async_loop a_par a_round]. unfold aseq_add, add_action.
    assert (C1 : (r + 1 <? 255) = true) by lia. assert (C2 : (mx + 2 <? 255) = true) by lia. assert (C3 : (0 <? 255) = true) by lia.
    assert (C4 : (r + 1 <? 0) = false) by lia.
    assert (F : forall (y : apar) k, filter (in_round k) (mkAct (r + 1) y :: x) =
       filter (in_round k) (postsA (nextq q p) l ++ (mkAct (r + 1) y :: bodyA (nextq q p) l) ++ waitsA mx (nextq q p) l)).
    { intros y k. rewrite !filter_app. simpl. rewrite H, !filter_app, !in_round_mk. destruct (r + 1 =? k) eqn:Ek; auto.
      rewrite P0 by lia. auto. }
    assert (FN : nextq q p = q -> (x, q + Z.of_nat (length (filter is_bufmsg l))) = (x, q + Z.of_nat (length (filter is_bufmsg l)))) by auto.
    destruct p; cbn [is_m nextq] in *; unfold nextq in *; cbn [is_m] in *;
      rewrite ?E; cbn [obind cassert a_par a_round]; rewrite ?C4, ?C1, ?C2, ?C3; cbn [obind cassert fst snd];
      rewrite ?E; cbn [obind fst snd app].
    all: cbn [filter is_bufmsg a_par postsA bodyA waitsA a_round app]; unfold nq; cbn [a_par]; unfold nextq; cbn [is_m].
    all: try (eexists; split; [reflexivity|]; intros k; apply F).
    all: try (eexists; split; [reflexivity|]; intros k; apply H).
    + eexists. split; [cbn [length]; replace (q + Z.of_nat (S (length (filter is_bufmsg l)))) with (q + 1 + Z.of_nat (length (filter is_bufmsg l))) by lia; reflexivity|]. intros k.
      rewrite !filter_app; cbn [filter]; rewrite ?filter_app; cbn [filter]; rewrite !in_round_mk. specialize (H k). rewrite !filter_app in H.
      destruct (r + 1 =? k) eqn:E1, (mx + 2 =? k) eqn:E2; rewrite ?H, ?P0, ?B0, ?W0 by lia; auto; try lia.
      all: rewrite ?app_nil_r; auto.
    + eexists. split; [cbn [length]; replace (q + Z.of_nat (S (length (filter is_bufmsg l)))) with (q + 1 + Z.of_nat (length (filter is_bufmsg l))) by lia; reflexivity|]. intros k.
      rewrite !filter_app; cbn [filter]; rewrite ?filter_app; cbn [filter]; rewrite !in_round_mk.
      specialize (H k). rewrite !filter_app in H.
      destruct (0 =? k) eqn:E1, (r + 1 =? k) eqn:E2; rewrite ?H, ?P0, ?B0, ?W0 by lia; auto; try lia.
Qed.

Lemma fold_max l : forall m, let r := fold_left (fun m a => if a_round a >? m then a_round a else m) l m in
  m <= r /\ (forall a, In a l -> a_round a <= r) /\ (r = m \/ exists a, In a l /\ r = a_round a).
Proof.
  induction l as [|a l IH]; intros m r; subst r; simpl.
  - split; [lia|]. split; [intros ? []|auto].
  - specialize (IH (if a_round a >? m then a_round a else m)). cbv zeta in IH. destruct IH as (H1 & H2 & H3).
    destruct (a_round a >? m) eqn:E; (split; [lia|split]).
    1,3: intros b [<-|Hb]; [lia|auto].
    all: destruct H3 as [H3|(b & Hb & E')]; [|right; exists b; auto]; rewrite H3; auto.
    right. exists a. auto.
Qed.

(* the sorted result *)
Definition resultA (mx : Z) (l : list action) : list action :=
  mkAct 0 (MpiReq (Z.of_nat (length (filter is_bufmsg l)))) :: postsA 0 l ++ bodyA 0 l ++ waitsA mx 0 l.

Lemma resultA_par mx l : map a_par (resultA mx l) = async_prog (pars l).
Proof.
  unfold resultA, async_prog. cbn [map a_par]. rewrite !map_app, postsA_par, bodyA_par, waitsA_par. f_equal. f_equal.
  f_equal. unfold pars. induction l as [|a l IH]; auto. destruct a as [r p]. simpl. destruct p; simpl; auto.
Qed.

Lemma bodyA_nop l : forall q a, In a (bodyA q l) -> not_nop a = true.
Proof.
  induction l as [|x l IH]; intros q a H; [destruct H|]. simpl in H. apply in_app_or in H. destruct H as [H|H]; eauto.
  destruct (a_par x); try destruct H as [<-|[]]; try destruct H; auto.
Qed.
Lemma postsA_nop l : forall q a, In a (postsA q l) -> not_nop a = true.
Proof.
  induction l as [|x l IH]; intros q a H; [destruct H|]. simpl in H. apply in_app_or in H. destruct H as [H|H]; eauto.
  destruct (a_par x); try destruct H as [<-|[]]; try destruct H; auto.
Qed.
Lemma waitsA_nop mx l : forall q a, In a (waitsA mx q l) -> not_nop a = true.
Proof.
  induction l as [|x l IH]; intros q a H; [destruct H|]. simpl in H. apply in_app_or in H. destruct H as [H|H]; eauto.
  destruct (a_par x); try destruct H as [<-|[]]; try destruct H; auto.
Qed.

Lemma resultA_nop mx l a : In a (resultA mx l) -> not_nop a = true.
Proof.
  intros [<-|H]; auto. apply in_app_or in H. destruct H as [H|H]; [eapply postsA_nop; eauto|].
  apply in_app_or in H. destruct H as [H|H]; [eapply bodyA_nop; eauto|eapply waitsA_nop; eauto].
Qed.

Lemma async_ok l : (exists a, In a l /\ is_bufmsg a = true) -> (forall a, In a l -> 0 <= a_round a < 253) ->
  exists mx l1, 0 <= mx /\ mx + 2 < 255 /\ (forall a, In a l -> a_round a <= mx) /\ async l = Ok (true, l1) /\
    forall k, filter (in_round k) l1 = filter (in_round k) (resultA mx l).
Proof.
  intros (a0 & Ha0 & Hm0) Hr. pose proof (fold_max l 0) as HM. cbv zeta in HM.
  unfold async. set (mx := fold_left _ l 0) in *. destruct HM as (M1 & M2 & M3).
  assert (Hmx : mx + 2 < 255) by (destruct M3 as [->|(a & Ha & ->)]; [lia|apply Hr in Ha; lia]).
  destruct (loop_ok mx Hmx l 0) as (x & E & H). { intros a Ha. split; [apply Hr in Ha; lia|auto]. }
  assert (Hc : Z.of_nat (length (filter is_bufmsg l)) =? 0 = false).
  { assert (I : In a0 (filter is_bufmsg l)) by (apply filter_In; auto). destruct (filter is_bufmsg l); [destruct I|simpl; lia]. }
  exists mx. eexists. split; [lia|]. split; [auto|]. split; [auto|]. rewrite Hc. unfold add_action. change (0 <? 255) with true. cbn [obind cassert]. rewrite E. cbn [obind fst snd].
  rewrite Z.add_0_l, Z.eqb_refl. cbn [cassert]. split; [reflexivity|]. intros k. unfold resultA. cbn [filter]. rewrite H. auto.
Qed.

Lemma resultA_sorted mx l : by_round l -> 0 <= mx -> (forall a, In a l -> 0 <= a_round a <= mx) -> by_round (resultA mx l).
Proof.
  intros Hs Hmx Hr. unfold resultA.
  change (by_round ([mkAct 0 (MpiReq (Z.of_nat (length (filter is_bufmsg l))))] ++ postsA 0 l ++ bodyA 0 l ++ waitsA mx 0 l)).
  assert (Hall : forall b, In b (postsA 0 l ++ bodyA 0 l ++ waitsA mx 0 l) -> 0 <= a_round b).
  { intros b Hb. apply in_app_or in Hb. destruct Hb as [Hb|Hb]; [apply postsA_round in Hb; lia|].
    apply in_app_or in Hb. destruct Hb as [Hb|Hb]; [|apply waitsA_round in Hb; lia].
    apply bodyA_round in Hb. destruct Hb as (c & Hc & ->). apply Hr in Hc. lia. }
  apply SS_app; [repeat constructor| |intros a b [<-|[]] Hb; simpl; auto].
  apply SS_app; [apply (const_sorted _ 0); apply postsA_round| |].
  - apply SS_app; [apply bodyA_sorted; auto|apply (const_sorted _ (mx + 2)); apply waitsA_round|].
    intros a b Ha Hb. apply bodyA_round in Ha. destruct Ha as (c & Hc & ->). apply waitsA_round in Hb. apply Hr in Hc. lia.
  - intros a b Ha Hb. apply postsA_round in Ha. rewrite Ha. apply Hall. apply in_or_app. auto.
Qed.

Lemma same_in (x y : list action) : (forall k, filter (in_round k) x = filter (in_round k) y) -> forall a, In a x <-> In a y.
Proof.
  intros H a. specialize (H (a_round a)). pose proof (in_filter_round (a_round a) x a). pose proof (in_filter_round (a_round a) y a).
  rewrite H in *. tauto.
Qed.

Lemma map_renum_filter f l k (C : list action) : (forall a b, In a l -> In b l -> f (a_round a) = f (a_round b) -> a_round a = a_round b) ->
  (forall c, In c C -> In c l) -> forall a, In a l -> a_round a = k ->
  filter (in_round (f k)) (map (renum f) C) = map (renum f) (filter (in_round k) C).
Proof.
  intros Hf HC a Ha Hk. induction C as [|c C IH]; auto. simpl. rewrite IH by (intros; apply HC; right; auto).
  unfold renum at 1. rewrite in_round_mk. change (in_round k c) with (a_round c =? k). destruct (a_round c =? k) eqn:E.
  - replace (a_round c) with k by lia. rewrite Z.eqb_refl. auto.
  - destruct (f (a_round c) =? f k) eqn:E'; auto. exfalso. subst k.
    assert (a_round c = a_round a); [|lia]. apply Hf; auto; [|lia]. apply HC. left. auto.
Qed.

Lemma shape f l1 r C : SortKeeps l1 true r f \/ SortKeeps l1 false r f -> KeepsOrder not_nop l1 r f ->
  (forall k, filter (in_round k) l1 = filter (in_round k) C) -> by_round C -> (forall a, In a C -> not_nop a = true) ->
  r = map (renum f) C.
Proof.
  intros HS HK HC Hsort Hnop.
  assert (Hin := same_in _ _ HC).
  assert (Hn1 : forall a, In a l1 -> not_nop a = true) by (intros a Ha; apply Hnop, Hin; auto).
  assert (Hren : Renumbering f l1) by (destruct HS as [HS|HS]; apply HS).
  destruct Hren as [Hren1 Hren2].
  assert (Hperm : Permutation (filter not_nop r) (map (renum f) (filter not_nop l1))) by (destruct HS as [HS|HS]; apply HS).
  assert (Hr : forall b, In b r -> not_nop b = true).
  { destruct HS as [HS|HS]; destruct HS as (_ & _ & _ & H1 & H2 & _); intros b Hb; [apply H2; auto|]. rewrite (H1 eq_refl) in Hb. auto. }
  assert (Hrs : by_round r) by (destruct HS as [HS|HS]; apply HS).
  assert (Hf : forall a b, In a l1 -> In b l1 -> f (a_round a) = f (a_round b) -> a_round a = a_round b).
  { intros a b Ha Hb E. destruct (Z_lt_le_dec (a_round a) (a_round b)) as [H|H]; [specialize (Hren1 a b Ha Hb H); lia|].
    destruct (Z_lt_le_dec (a_round b) (a_round a)) as [H'|H']; [specialize (Hren1 b a Hb Ha H'); lia|lia]. }
  apply by_round_unique; auto.
  { (* the renumbered list is sorted *)
    assert (HC1 : forall c, In c C -> In c l1) by (intros c; apply Hin). clear - Hsort Hren1 HC1.
    induction Hsort as [|a C Hs IH Ha]; constructor.
    - apply IH. intros c Hc. apply HC1. right. auto.
    - apply Forall_forall. intros b Hb. apply in_map_iff in Hb. destruct Hb as (c & <- & Hc). simpl.
      rewrite Forall_forall in Ha. specialize (Ha _ Hc). destruct (Z.eq_dec (a_round a) (a_round c)) as [->|Hd]; [lia|].
      assert (f (a_round a) < f (a_round c)); [|lia]. apply Hren1; [apply HC1; left; auto|apply HC1; right; auto|lia]. }
  intros k.
  assert (HX : forall P x, (forall b, In b x -> not_nop b = true) -> filter (fun b => not_nop b && P b) x = filter P x).
  { intros P x Hx. induction x as [|b x IH]; auto. simpl. rewrite (Hx b) by (left; auto). simpl. rewrite IH; auto. intros c Hc. apply Hx. right. auto. }
  assert (Hk : (exists a, In a l1 /\ f (a_round a) = k) \/ forall a, In a l1 -> f (a_round a) <> k).
  { clear. induction l1 as [|a l IH]; [right; intros ? []|]. destruct (Z.eq_dec (f (a_round a)) k) as [E|E]; [left; exists a; split; [left|]; auto|].
    destruct IH as [(b & Hb & Eb)|IH]; [left; exists b; split; [right|]; auto|right]. intros b [<-|Hb]; auto. }
  destruct Hk as [(a & Ha & <-)|Hk].
  - specialize (HK a Ha). rewrite !HX in HK by auto. rewrite HK.
    rewrite (map_renum_filter f l1 (a_round a) C Hf ltac:(intros; apply Hin; auto) a Ha eq_refl), HC. auto.
  - assert (N1 : filter (in_round k) r = []).
    { apply filter_none. intros b Hb. assert (I : In b (filter not_nop r)) by (apply filter_In; auto).
      apply (Permutation_in _ Hperm) in I. apply in_map_iff in I. destruct I as (c & <- & Hc). apply filter_In in Hc.
      destruct Hc as [Hc _]. apply Hk in Hc. unfold in_round. simpl. lia. }
    rewrite N1. symmetry. apply filter_none. intros b Hb. apply in_map_iff in Hb. destruct Hb as (c & <- & Hc). apply Hin in Hc. apply Hk in Hc.
    unfold in_round. simpl. lia.
Qed.

(* ---- the sequence before is executed in the order of the list ---- *)
Lemma exec_rounds_flat d l rs : forall s, exec_rounds d l rs s = exec_is (map d (flat_map (fun r => filter (in_rd r) l) rs)) s.
Proof.
  induction rs as [|r rs IH]; intros s; auto. simpl. rewrite map_app, exec_is_app.
  destruct (exec_is (map d (filter (in_rd r) l)) s); auto.
Qed.

Lemma filter_twice k r (l : list action) : filter (in_round k) (filter (in_rd r) l) = if r =? k then filter (in_round k) l else [].
Proof.
  destruct (r =? k) eqn:E.
  - replace r with k by lia. induction l as [|a l IH]; auto. simpl. change (in_rd k a) with (in_round k a). destruct (in_round k a) eqn:Ea; simpl; rewrite ?Ea; [f_equal|]; auto.
  - apply filter_none. intros a Ha. apply filter_In in Ha. unfold in_round, in_rd in *. lia.
Qed.

Lemma flat_sorted l : by_round l -> (forall a, In a l -> 0 <= a_round a < 255) ->
  flat_map (fun r => filter (in_rd r) l) (map Z.of_nat (seq 0 255)) = l.
Proof.
  intros Hs Hr. apply by_round_unique; auto.
  - generalize 0%nat as st, 255%nat as n. intros st n. revert st. induction n as [|n IH]; intros st; [constructor|].
    cbn [seq map flat_map]. apply SS_app; auto.
    + apply (const_sorted _ (Z.of_nat st)). intros a Ha. apply filter_In in Ha. unfold in_rd in Ha. lia.
    + intros a b Ha Hb. apply filter_In in Ha. apply in_flat_map in Hb. destruct Hb as (k & Hk & Hb). apply in_map_iff in Hk.
      destruct Hk as (m & <- & Hm). apply in_seq in Hm. apply filter_In in Hb. unfold in_rd in *. lia.
  - intros k. assert (HX : forall n st, filter (in_round k) (flat_map (fun r => filter (in_rd r) l) (map Z.of_nat (seq st n))) =
       if (Z.of_nat st <=? k) && (k <? Z.of_nat (st + n)) then filter (in_round k) l else []).
    { induction n as [|n IH]; intros st.
      - simpl. destruct (_ <=? _) eqn:E; auto. simpl. destruct (k <? _) eqn:E'; auto. lia.
      - cbn [seq map flat_map]. rewrite filter_app, IH, filter_twice.
        destruct (Z.of_nat st =? k) eqn:E1, (Z.of_nat (S st) <=? k) eqn:E2, (k <? Z.of_nat (S st + n)) eqn:E3, (Z.of_nat st <=? k) eqn:E4, (k <? Z.of_nat (st + S n)) eqn:E5;
          simpl; rewrite ?app_nil_r; auto; try lia. }
    rewrite HX. destruct (_ && _) eqn:E; auto. symmetry. apply filter_none. intros a Ha. apply Hr in Ha. unfold in_round. lia.
Qed.
Lemma exec_seq_sorted d l s : by_round l -> (forall a, In a l -> 0 <= a_round a < 255) -> exec_seq d l s = exec_is (map d l) s.
Proof. intros Hs Hr. unfold exec_seq. rewrite exec_rounds_flat, flat_sorted; auto. Qed.

Lemma exec_skip_nops cx place oth l : forall s,
  exec_is (map (den cx place oth) l) s = exec_is (map (fun p => den cx place oth (mkAct 0 p)) (pars l)) s.
Proof.
  induction l as [|a l IH]; intros s; auto. destruct a as [r p]. unfold pars. cbn [filter].
  destruct (not_nop (mkAct r p)) eqn:E.
  - cbn [map exec_is a_par]. change (den cx place oth (mkAct r p)) with (den cx place oth (mkAct 0 p)).
    destruct (exec_i (den cx place oth (mkAct 0 p)) s); [apply IH|auto].
  - destruct p; try discriminate. cbn [map exec_is]. change (den cx place oth (mkAct r Nop)) with skip.
    assert (Hs : exec_i skip s = Some s) by (destruct s; reflexivity). rewrite Hs. apply IH.
Qed.

(* ---- requests ---- *)
Definition msgs (l : list apar) : Z := Z.of_nat (length (filter is_m l)).
Lemma msgs_cons p l : msgs (p :: l) = (if is_m p then 1 else 0) + msgs l.
Proof. unfold msgs. simpl. destruct (is_m p); simpl; lia. Qed.
Lemma msgs_pos l : 0 <= msgs l.
Proof. unfold msgs. lia. Qed.
Lemma nextq_msgs q p l : nextq q p + msgs l = q + msgs (p :: l).
Proof. rewrite msgs_cons. unfold nextq. destruct (is_m p); lia. Qed.

Lemma posts_app a b : forall q, posts q (a ++ b) = posts q a ++ posts (q + msgs a) b.
Proof. induction a as [|p a IH]; intros q; simpl; [f_equal; unfold msgs; simpl; lia|]. rewrite IH, <- app_assoc, nextq_msgs. auto. Qed.
Lemma body_app a b : forall q, body q (a ++ b) = body q a ++ body (q + msgs a) b.
Proof. induction a as [|p a IH]; intros q; simpl; [f_equal; unfold msgs; simpl; lia|]. rewrite IH, nextq_msgs. auto. Qed.
Lemma waits_app a b : forall q, waits q (a ++ b) = waits q a ++ waits (q + msgs a) b.
Proof. induction a as [|p a IH]; intros q; simpl; [f_equal; unfold msgs; simpl; lia|]. rewrite IH, <- app_assoc, nextq_msgs. auto. Qed.

Definition ids_in (lo hi : Z) (x : list apar) : Prop := forall p k, In p x -> req_of p = Some k -> lo <= k < hi.
Lemma posts_ids l : forall q, ids_in q (q + msgs l) (posts q l).
Proof.
  induction l as [|x l IH]; intros q p k Hp Hk; [destruct Hp|]. simpl in Hp. apply in_app_or in Hp. destruct Hp as [Hp|Hp].
  - destruct x; try destruct Hp as [<-|[]]; try destruct Hp. injection Hk as <-. rewrite msgs_cons. simpl. pose proof (msgs_pos l). lia.
  - specialize (IH _ _ _ Hp Hk). rewrite nextq_msgs in IH. unfold nextq in IH. destruct (is_m x); lia.
Qed.
Lemma waits_ids l : forall q, ids_in q (q + msgs l) (waits q l).
Proof.
  induction l as [|x l IH]; intros q p k Hp Hk; [destruct Hp|]. simpl in Hp. apply in_app_or in Hp. destruct Hp as [Hp|Hp].
  - destruct x; try destruct Hp as [<-|[]]; try destruct Hp. injection Hk as <-. rewrite msgs_cons. simpl. pose proof (msgs_pos l). lia.
  - specialize (IH _ _ _ Hp Hk). rewrite nextq_msgs in IH. unfold nextq in IH. destruct (is_m x); lia.
Qed.
Lemma body_ids l : (forall p, In p l -> ~ is_mpi p) -> forall q, ids_in q (q + msgs l) (body q l).
Proof.
  induction l as [|x l IH]; intros Hpl q p k Hp Hk; [destruct Hp|]. cbn [body] in Hp. destruct Hp as [Hp|Hp].
  - assert (Hx := Hpl x (or_introl eq_refl)). pose proof (msgs_pos l). rewrite msgs_cons.
    destruct x; subst p; simpl in Hk, Hx |- *; try discriminate; try tauto; injection Hk as <-; lia.
  - specialize (IH (fun y Hy => Hpl y (or_intror Hy)) _ _ _ Hp Hk). rewrite nextq_msgs in IH. unfold nextq in IH. destruct (is_m x); lia.
Qed.

Lemma msg_at l k : 0 <= k < msgs l -> exists a m b, l = a ++ m :: b /\ msgs a = k /\ is_m m = true.
Proof.
  revert k. induction l as [|p l IH]; intros k Hk; [unfold msgs in Hk; simpl in Hk; lia|].
  rewrite msgs_cons in Hk. destruct (is_m p) eqn:E.
  - destruct (Z.eq_dec k 0) as [->|Hd]; [exists [], p, l; auto|].
    destruct (IH (k - 1)) as (a & m & b & -> & H1 & H2); [lia|]. exists (p :: a), m, b. split; auto. split; auto. rewrite msgs_cons, E. lia.
  - destruct (IH k) as (a & m & b & -> & H1 & H2); [lia|]. exists (p :: a), m, b. split; auto. split; auto. rewrite msgs_cons, E. lia.
Qed.
