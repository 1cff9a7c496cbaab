(* The sort functions: result, renumbering of rounds, stability. *)
From Coq Require Import ZArith List Bool Lia Permutation Sorted ZifyBool ZifyNat.
From Verif Require Import Base Model_Transition Model_Action Spec_RangeList Spec_Action Proof_RangeList5.
Import ListNotations.
Open Scope Z_scope.

(* ---- sorted lists ---- *)
Lemma ss_app_in {A} (R : A -> A -> Prop) l1 x l2 : StronglySorted R (l1 ++ x :: l2) -> Forall (R x) l2.
Proof. induction l1; simpl; intros H; inversion H; auto. Qed.

Lemma ss_filter {A} (R : A -> A -> Prop) (f : A -> bool) l : StronglySorted R l -> StronglySorted R (filter f l).
Proof.
  induction 1; simpl; [constructor|]. destruct (f a); auto. constructor; auto.
  rewrite Forall_forall in *. intros x Hx. apply filter_In in Hx. apply H0. tauto.
Qed.

Lemma ss_weaken {A} (R R' : A -> A -> Prop) l :
  (forall x y, In x l -> In y l -> R x y -> R' x y) -> StronglySorted R l -> StronglySorted R' l.
Proof.
  intros H S. induction S; constructor.
  - apply IHS. intros x y Hx Hy. apply H; simpl; auto.
  - rewrite Forall_forall in *. intros x Hx. apply H; simpl; auto.
Qed.

Lemma ss_map {A B} (f : A -> B) (R : B -> B -> Prop) l : StronglySorted (fun x y => R (f x) (f y)) l <-> StronglySorted R (map f l).
Proof.
  split.
  - induction 1; simpl; constructor; auto. rewrite Forall_forall in *. intros x Hx. apply in_map_iff in Hx. destruct Hx as (y & <- & Hy). auto.
  - induction l; simpl; intros H; constructor; inversion H; subst; auto.
    rewrite Forall_forall in *. intros x Hx. apply H3. apply in_map. auto.
Qed.

Lemma sorted_unique {A} (R : A -> A -> Prop) l1 l2 :
  (forall x y, In x l1 -> In y l1 -> R x y -> R y x -> x = y) ->
  StronglySorted R l1 -> StronglySorted R l2 -> Permutation l1 l2 -> l1 = l2.
Proof.
  revert l2. induction l1 as [|a l1 IH]; intros l2 Ha S1 S2 P.
  - apply Permutation_nil in P. auto.
  - destruct l2 as [|b l2]; [apply Permutation_sym, Permutation_nil in P; discriminate|].
    inversion S1 as [|? ? S1' F1]; subst. inversion S2 as [|? ? S2' F2]; subst.
    assert (E : a = b).
    { assert (Hb : In b (a :: l1)) by (eapply Permutation_in; [apply Permutation_sym; eauto|left; auto]).
      assert (Hx : In a (b :: l2)) by (eapply Permutation_in; [eauto|left; auto]).
      rewrite Forall_forall in F1, F2.
      destruct Hb as [Hb|Hb]; [auto|]. destruct Hx as [Hx|Hx]; [auto|].
      apply Ha; simpl; auto. }
    subst b. f_equal. apply IH; auto.
    + intros. apply Ha; simpl; auto.
    + eapply Permutation_cons_inv; eauto.
Qed.

Lemma perm_filter {A} (f : A -> bool) l l' : Permutation l l' -> Permutation (filter f l) (filter f l').
Proof.
  induction 1; simpl; auto.
  - destruct (f x); auto.
  - destruct (f x), (f y); auto. apply perm_swap.
  - eapply perm_trans; eauto.
Qed.

(* ---- number ---- *)
Lemma number_snd l : map snd (number l) = l.
Proof.
  unfold number. assert (H : forall (x : list Z) (y : list action), length x = length y -> map snd (combine x y) = y).
  { induction x; destruct y; simpl; intros; try discriminate; auto. f_equal. apply IHx. lia. }
  apply H. rewrite map_length, seq_length. auto.
Qed.

Lemma number_sorted l : StronglySorted (fun x y : aptr => fst x < fst y) (number l).
Proof.
  unfold number. generalize 0%nat. induction l; intros n; simpl; constructor.
  - apply IHl.
  - rewrite Forall_forall. intros [i b] Hx. apply in_combine_l in Hx. apply in_map_iff in Hx. destruct Hx as (k & <- & Hk).
    apply in_seq in Hk. simpl. lia.
Qed.

Lemma number_in l x : In x (number l) -> In (snd x) l.
Proof. intros H. rewrite <- (number_snd l). apply in_map. auto. Qed.

Lemma fst_inj_sorted (l : list aptr) : StronglySorted (fun x y : aptr => fst x < fst y) l ->
  forall x y, In x l -> In y l -> fst x = fst y -> x = y.
Proof.
  induction 1; intros x y Hx Hy E; [destruct Hx|]. rewrite Forall_forall in H0.
  destruct Hx as [<-|Hx], Hy as [<-|Hy]; auto.
  - apply H0 in Hy. lia.
  - apply H0 in Hx. lia.
Qed.

Lemma number_inj l x y : In x (number l) -> In y (number l) -> fst x = fst y -> x = y.
Proof. apply fst_inj_sorted. apply number_sorted. Qed.

Lemma same_order_eq l l' : same_order (number l) l' = true -> Permutation (number l) l' -> l' = number l.
Proof.
  intros H P.
  assert (Hin : forall y, In y l' -> In y (number l)) by (intros y Hy; eapply Permutation_in; [apply Permutation_sym; eauto|auto]).
  assert (E : map fst l' = map fst (number l)).
  { clear P Hin. revert H. generalize (number l). intros m. revert l'. induction m; destruct l'; simpl; intros; try discriminate; auto. f_equal; [lia|]. apply IHm. lia. }
  assert (G : forall m1 m2 : list aptr, (forall y, In y m1 -> In y (number l)) -> (forall y, In y m2 -> In y (number l)) -> map fst m1 = map fst m2 -> m1 = m2).
  { induction m1; destruct m2; simpl; intros H1 H2 E'; try discriminate; auto. injection E' as E1 E2. f_equal.
    - eapply number_inj; eauto.
    - apply IHm1; auto. }
  apply G; auto.
Qed.

(* elements for which the comparison goes by position keep their order *)
Lemma stable (cmp : aptr -> aptr -> Z) q l (P : action -> bool) : is_qsort cmp q ->
  (forall x y, In x (number l) -> In y (number l) -> P (snd x) = true -> P (snd y) = true -> cmp x y <= 0 -> fst x <= fst y) ->
  filter P (map snd (q (number l))) = filter P l.
Proof.
  intros Q H. destruct (Q (number l)) as [Pm S].
  assert (E : filter (fun x => P (snd x)) (q (number l)) = filter (fun x => P (snd x)) (number l)).
  { symmetry. apply (sorted_unique (fun x y : aptr => fst x <= fst y)).
    - intros x y Hx Hy H1 H2. apply filter_In in Hx, Hy. apply (number_inj l); try tauto. lia.
    - apply ss_filter. eapply ss_weaken; [|apply number_sorted]. simpl. intros. lia.
    - assert (S2 : StronglySorted (fun x y => cmp x y <= 0) (filter (fun x => P (snd x)) (q (number l)))) by (apply ss_filter; auto).
      eapply ss_weaken; [|apply S2]. intros x y Hx Hy Hc. apply filter_In in Hx, Hy. apply H; try tauto.
      + eapply Permutation_in; [apply Permutation_sym; apply Pm|tauto].
      + eapply Permutation_in; [apply Permutation_sym; apply Pm|tauto].
    - apply perm_filter. auto. }
  assert (F : forall m : list aptr, filter P (map snd m) = map snd (filter (fun x => P (snd x)) m)).
  { induction m; simpl; auto. destruct (P (snd a)); simpl; rewrite IHm; auto. }
  rewrite F, E, <- F, number_snd. auto.
Qed.

Lemma order_perm (cmp : aptr -> aptr -> Z) q l : is_qsort cmp q -> Permutation l (map snd (q (number l))).
Proof. intros Q. destruct (Q (number l)) as [Pm _]. rewrite <- (number_snd l) at 1. apply Permutation_map. auto. Qed.

(* ---- renumbering ---- *)
Lemma resort_spec l : forall old new,
  StronglySorted (fun a b => a_round a <= a_round b) l ->
  (forall a, In a l -> old <= a_round a) ->
  (forall a, In a l -> a_round a - old + new < 255) -> 0 <= new ->
  exists f, resort_loop old new l = Ok (map (renum f) (filter not_nop l)) /\
    f old = new /\
    (forall a, In a l -> old < a_round a -> new < f (a_round a)) /\
    (forall a b, In a l -> In b l -> a_round a < a_round b -> f (a_round a) < f (a_round b)) /\
    (forall a, In a l -> f (a_round a) - new <= a_round a - old) /\
    (forall a k, In a l -> new < k <= f (a_round a) -> exists b, In b l /\ f (a_round b) = k).
Proof.
  induction l as [|a l IH]; intros old new S Hlo Hb Hn.
  - exists (fun _ => new). conjs.
    all: simpl; intros; auto; try contradiction.
  - inversion S as [|? ? S' F]; subst. rewrite Forall_forall in F.
    pose proof (Hlo a ltac:(left; auto)) as La. pose proof (Hb a ltac:(left; auto)) as Ba.
    set (nr := if old <? a_round a then new + 1 else new).
    assert (Hnr : new <= nr /\ nr - new <= a_round a - old) by (unfold nr; destruct (old <? a_round a) eqn:E; lia).
    destruct (IH (a_round a) nr S') as (f & Ef & F0 & F1 & F2 & F3 & F4).
    { intros b Hb'. apply F; auto. }
    { intros b Hb'. pose proof (Hb b ltac:(right; auto)). lia. }
    { lia. }
    set (g := fun r => if r <? a_round a then new else f r).
    assert (Ga : g (a_round a) = nr). { unfold g. replace (a_round a <? a_round a) with false by lia. auto. }
    assert (Gl : forall b, In b l -> g (a_round b) = f (a_round b)).
    { intros b Hb'. unfold g. pose proof (F b Hb'). replace (a_round b <? a_round a) with false by lia. auto. }
    exists g. conjs.
    + cbn [resort_loop]. replace (old <=? a_round a) with true by lia. cbn [cassert]. fold nr.
      rewrite Ef. cbn [obind]. unfold aseq_add.
      assert (Em : map (renum f) (filter not_nop l) = map (renum g) (filter not_nop l)).
      { apply map_ext_in. intros b Hb'. apply filter_In in Hb'. unfold renum. rewrite Gl by tauto. auto. }
      rewrite Em.
      assert (Eg : forall p, a_par a = p -> not_nop a = true -> (do x <- (do x0 <- add_action (if nr <? 0 then a_round a else nr) p; Ok [x0]); do r <- Ok (map (renum g) (filter not_nop l)); Ok (x ++ r)) = Ok (map (renum g) (filter not_nop (a :: l)))).
      { intros p Ep Np. unfold add_action. replace (nr <? 0) with false by lia. replace (nr <? 255) with true by lia. cbn [cassert obind filter]. rewrite Np. cbn [map app]. unfold renum at 2. rewrite Ga, Ep. auto. }
      destruct (a_par a) eqn:Ep; try (apply Eg; auto; unfold not_nop; rewrite Ep; auto).
      cbn [obind app filter]. unfold not_nop at 2. rewrite Ep. auto.
    + unfold g. destruct (old <? a_round a) eqn:E; auto. assert (a_round a = old) by lia. rewrite <- H. rewrite F0. lia.
    + intros b [<-|Hb'] Hlt.
      * rewrite Ga. unfold nr. replace (old <? a_round a) with true by lia. lia.
      * rewrite Gl by auto. destruct (Z.eq_dec (a_round b) (a_round a)) as [Eb|Nb].
        -- rewrite Eb, F0. unfold nr. rewrite Eb in Hlt. replace (old <? a_round a) with true by lia. lia.
        -- pose proof (F b Hb'). pose proof (F1 b Hb' ltac:(lia)). lia.
    + intros b c [<-|Hb'] [<-|Hc] Hlt; [lia| | |].
      * rewrite Ga, Gl by auto. apply F1; auto.
      * pose proof (F b Hb'). lia.
      * rewrite !Gl by auto. apply F2; auto.
    + intros b [<-|Hb'].
      * rewrite Ga. lia.
      * rewrite Gl by auto. pose proof (F3 b Hb'). lia.
    + intros b k [<-|Hb'] Hk.
      * exists a. split; [left; auto|]. rewrite Ga in *. unfold nr in *. destruct (old <? a_round a); lia.
      * rewrite Gl in Hk by auto. destruct (Z_le_gt_dec k nr).
        -- exists a. split; [left; auto|]. rewrite Ga. unfold nr in *. destruct (old <? a_round a); lia.
        -- destruct (F4 b k Hb' ltac:(lia)) as (c & Hc & Ec). exists c. split; [right; auto|]. rewrite Gl; auto.
Qed.


Lemma addResorted_spec l : l <> [] ->
  StronglySorted (fun a b => a_round a <= a_round b) l -> (forall a, In a l -> 0 <= a_round a < 255) ->
  exists f, addResorted l = Ok (map (renum f) (filter not_nop l)) /\ Renumbering f l /\ Dense f l.
Proof.
  intros Hne S Hr. destruct l as [|a0 l0]; [congruence|]. set (l := a0 :: l0) in *.
  assert (Hmin : forall a, In a l -> a_round a0 <= a_round a).
  { intros a [<-|Ha]; [lia|]. inversion S as [|? ? S' F]. rewrite Forall_forall in F. apply F; auto. }
  pose proof (Hr a0 ltac:(left; auto)) as R0.
  destruct (resort_spec l (a_round a0) 0 S Hmin) as (f & E & F0 & F1 & F2 & F3 & F4).
  - intros a Ha. pose proof (Hr a Ha). lia.
  - lia.
  - assert (Fp : forall a, In a l -> 0 <= f (a_round a)).
    { intros a Ha. destruct (Z.eq_dec (a_round a) (a_round a0)) as [Ee|Ne]; [rewrite Ee; lia|].
      pose proof (Hmin a Ha). pose proof (F1 a Ha ltac:(lia)). lia. }
    exists f. split; [exact E|]. split; [split|].
    + intros; apply F2; auto.
    + intros a Ha. pose proof (F3 a Ha). pose proof (Fp a Ha). lia.
    + intros a k Ha Hk. destruct (Z.eq_dec k 0) as [->|Hk0].
      * exists a0. split; [left; auto|auto].
      * apply (F4 a k); auto. lia.
Qed.

Lemma perm_in_iff {A} (l l' : list A) x : Permutation l l' -> (In x l <-> In x l').
Proof. intros P. split; apply Permutation_in; [|apply Permutation_sym]; auto. Qed.

(* result of a sort function whose comparison goes by rounds first *)
Lemma sort_result cmp q l : is_qsort cmp q ->
  (forall x y, cmp x y <= 0 -> a_round (snd x) <= a_round (snd y)) ->
  (forall a, In a l -> 0 <= a_round a < 255) ->
  exists ch r f, sort_with q l = Ok (ch, r) /\ Renumbering f l /\
    ((ch = false /\ r = l /\ map snd (q (number l)) = l /\ forall x, f x = x) \/
     (ch = true /\ r = map (renum f) (filter not_nop (map snd (q (number l)))) /\ Dense f l)).
Proof.
  intros Q Hc Hr. unfold sort_with. destruct l as [|a0 l0].
  - exists false, [], (fun x => x). split; auto. split; [split; simpl; intros; contradiction|]. left. conjs; auto.
    destruct (Q (number [])) as [P _]. simpl in P. apply Permutation_nil in P. simpl number. rewrite P. auto.
  - set (l := a0 :: l0) in *. destruct (Q (number l)) as [P S].
    assert (Ssr : StronglySorted (fun a b => a_round a <= a_round b) (map snd (q (number l)))).
    { apply (proj1 (ss_map snd (fun a b => a_round a <= a_round b) (q (number l)))). eapply ss_weaken; [|apply S]. intros x y _ _. apply Hc. }
    assert (Pl : Permutation l (map snd (q (number l)))) by (apply (order_perm cmp); auto).
    destruct (same_order (number l) (q (number l))) eqn:E.
    + exists false, l, (fun x => x). split; auto. split.
      * split; [intros; lia|]. intros a Ha. pose proof (Hr a Ha). lia.
      * left. apply same_order_eq in E; auto. rewrite E, number_snd. auto.
    + destruct (addResorted_spec (map snd (q (number l)))) as (f & Ef & Rf & Df).
      * intros Hn. rewrite Hn in Pl. apply Permutation_sym, Permutation_nil in Pl. discriminate.
      * auto.
      * intros a Ha. apply Hr. eapply Permutation_in; [apply Permutation_sym; eauto|auto].
      * exists true, (map (renum f) (filter not_nop (map snd (q (number l))))), f. rewrite Ef. cbn [obind]. split; auto.
        split; [|right; conjs; auto].
        -- destruct Rf as [R1 R2]. split; intros; [apply R1|apply R2]; auto; eapply Permutation_in; eauto.
        -- unfold Dense. intros a k Ha Hk. destruct (Df a k) as (b & Hb & Eb); auto; [eapply Permutation_in; eauto|]. exists b. split; auto.
           eapply Permutation_in; [apply Permutation_sym; eauto|auto].
Qed.

(* ---- lists sorted by round ---- *)
Lemma split_first (l : list action) lo : StronglySorted (fun a b => a_round a <= a_round b) l ->
  (forall a, In a l -> lo <= a_round a) ->
  l = filter (in_round lo) l ++ filter (fun a => lo <? a_round a) l.
Proof.
  induction 1 as [|a l S IH F]; intros H; auto. simpl. unfold in_round at 1.
  pose proof (H a ltac:(left; auto)) as Ha. rewrite Forall_forall in F.
  destruct (a_round a =? lo) eqn:E.
  - replace (lo <? a_round a) with false by lia. simpl. f_equal. apply IH. intros; apply H; right; auto.
  - replace (lo <? a_round a) with true by lia.
    assert (E1 : filter (in_round lo) l = []).
    { clear -F E Ha. induction l; simpl; auto. unfold in_round at 1. pose proof (F a0 ltac:(left; auto)). replace (a_round a0 =? lo) with false by lia. apply IHl. intros; apply F; right; auto. }
    assert (E2 : filter (fun a => lo <? a_round a) l = l).
    { clear -F E Ha. induction l; simpl; auto. pose proof (F a0 ltac:(left; auto)). replace (lo <? a_round a0) with true by lia. f_equal. apply IHl. intros; apply F; right; auto. }
    rewrite E1, E2. auto.
Qed.

Lemma filter_filter {A} (f g : A -> bool) l : filter f (filter g l) = filter (fun x => g x && f x) l.
Proof. induction l; simpl; auto. destruct (g a); simpl; rewrite IHl; auto. Qed.

Lemma filter_ext_in' {A} (f g : A -> bool) l : (forall x, In x l -> f x = g x) -> filter f l = filter g l.
Proof. intros H. apply filter_ext_in. auto. Qed.

Lemma flat_map_ext_in {A B} (f g : A -> list B) l : (forall x, In x l -> f x = g x) -> flat_map f l = flat_map g l.
Proof. induction l; simpl; intros H; auto. rewrite H, IHl; auto. Qed.

Lemma flat_rounds_gen len : forall lo l, StronglySorted (fun a b => a_round a <= a_round b) l ->
  (forall a, In a l -> Z.of_nat lo <= a_round a < Z.of_nat lo + Z.of_nat len) ->
  l = flat_map (fun r => filter (in_round r) l) (map Z.of_nat (seq lo len)).
Proof.
  induction len; intros lo l S H.
  - destruct l; auto. pose proof (H a ltac:(left; auto)). lia.
  - cbn [seq map flat_map]. rewrite (split_first l (Z.of_nat lo)) at 1; auto; [|intros; apply H; auto].
    f_equal. set (m := filter (fun a => Z.of_nat lo <? a_round a) l).
    rewrite (IHlen (Datatypes.S lo) m).
    + apply flat_map_ext_in. intros r Hr. apply in_map_iff in Hr. destruct Hr as (k & <- & Hk). apply in_seq in Hk.
      unfold m. rewrite filter_filter. apply filter_ext_in'. intros a Ha. unfold in_round. lia.
    + apply ss_filter; auto.
    + unfold m. intros a Ha. apply filter_In in Ha. destruct Ha as [Ha Hlt]. pose proof (H a Ha). lia.
Qed.

Lemma flat_rounds l : StronglySorted (fun a b => a_round a <= a_round b) l ->
  (forall a, In a l -> 0 <= a_round a < 255) ->
  l = flat_map (fun r => filter (in_round r) l) all_rounds.
Proof. intros S H. apply (flat_rounds_gen 255 0); auto. Qed.
