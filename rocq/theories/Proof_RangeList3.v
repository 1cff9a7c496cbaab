(* Proofs about Model_RangeList: single index lists, list predicates, maps, migration *)
From Coq Require Import ZArith List Bool Lia ZifyBool ZifyNat Permutation Sorted.
From Verif Require Import Base Model_Space Spec_Space Proof_Space Model_RangeList Spec_RangeList
  Proof_RangeList Proof_RangeList2.
Import ListNotations.
Open Scope Z_scope.

Lemma nth_error_Some_lt {A} (l : list A) k x : nth_error l k = Some x -> (k < length l)%nat.
Proof. intros H. apply nth_error_Some. congruence. Qed.

(* ---- single index API ---- *)

Definition tsile (a b : tsi) : Prop := tss1d_cmp a b <= 0.

Lemma si_conv_owned t i : forall l task idx0 idx,
  idx0 <= idx -> StronglySorted tsile (mkTsi task idx :: l) ->
  (owned 1 (si_conv task idx0 idx l) t i <->
   (t = task /\ idx0 <= i0 i <= idx) \/ exists s, In s l /\ si_task s = t /\ si_idx s = i0 i).
Proof.
  induction l as [|s l IH]; intros task idx0 idx Hle Hs; simpl.
  - rewrite owned_cons. unfold InBox; simpl. split.
    + intros [H|H]; [left; lia|exfalso; eapply owned_nil; eauto].
    + intros [H|[s [[] _]]]. left. lia.
  - destruct (sorted2_inv _ _ _ _ Hs) as [H6 [H7 [H1 [H8 H5]]]].
    unfold tsile in H6. rewrite tss1d_cmp_le in H6. simpl in H6.
    destruct ((si_task s =? task) && (si_idx s =? idx)) eqn:E1.
    + rewrite IH; auto; [|constructor; auto].
      split.
      * intros [K|[s' K]]; [auto|right; exists s'; tauto].
      * intros [K|[s' [[K|K] K2]]]; [auto|subst; left; lia|right; exists s'; tauto].
    + destruct ((si_task s =? task) && (si_idx s =? idx + 1)) eqn:E2.
      * rewrite IH; [|lia|].
        2:{ constructor; auto. eapply Forall_impl; [|exact H8].
            intros a. unfold tsile. rewrite !tss1d_cmp_le. simpl. lia. }
        split.
        -- intros [K|[s' K]]; [|right; exists s'; tauto].
           destruct (Z.eq_dec (i0 i) (idx + 1)); [right; exists s; split; [auto|lia]|left; lia].
        -- intros [K|[s' [[K|K] K2]]]; [left; lia|subst; left; lia|right; exists s'; tauto].
      * rewrite owned_cons. rewrite IH; [|lia|destruct s; auto]. unfold InBox; simpl.
        split.
        -- intros [K|[K|[s' K]]]; [left; lia|right; exists s; split; [auto|lia]|right; exists s'; tauto].
        -- intros [K|[s' [[K|K] K2]]]; [left; lia|subst; right; left; lia|right; right; exists s'; tauto].
Qed.

Lemma si_conv_count : forall l task idx0 idx,
  Z.of_nat (length (si_conv task idx0 idx l)) = 1 + si_count task idx l.
Proof.
  induction l as [|s l IH]; intros; simpl; auto.
  destruct (_ && _); auto. destruct (_ && _); auto. simpl. rewrite Nat2Z.inj_succ, IH. lia.
Qed.

Lemma si_conv_tasks (P : Z -> Prop) : forall l task idx0 idx,
  P task -> Forall (fun s => P (si_task s)) l ->
  Forall (fun x => P (t_task x)) (si_conv task idx0 idx l).
Proof.
  induction l as [|s l IH]; intros task idx0 idx Hp Hf; simpl.
  - constructor; auto.
  - inversion Hf; subst. destruct (_ && _); auto. destruct (_ && _); auto.
Qed.

(* all entries: tag 0, map number 0, not empty; sorted and separated *)
Lemma si_conv_shape : forall l task idx0 idx,
  idx0 <= idx -> StronglySorted tsile (mkTsi task idx :: l) ->
  Forall (fun x => t_tag x = 0 /\ t_mapNo x = 0 /\
     i0 (b_from (t_box x)) < i0 (b_to (t_box x))) (si_conv task idx0 idx l) /\
  StronglySorted (fun a b => bytask a b /\ sep a b) (si_conv task idx0 idx l) /\
  (forall p, (t_task p < task \/ t_task p = task /\ i0 (b_to (t_box p)) < idx0) ->
     Forall (fun b => bytask p b /\ sep p b) (si_conv task idx0 idx l)).
Proof.
  induction l as [|s l IH]; intros task idx0 idx Hle Hs; simpl.
  - split; [|split].
    + constructor; auto. simpl. lia.
    + repeat constructor.
    + intros p Hp. constructor; auto. unfold bytask, sep; simpl. lia.
  - destruct (sorted2_inv _ _ _ _ Hs) as [H6 [H7 [H1 [H8 H5]]]].
    unfold tsile in H6. rewrite tss1d_cmp_le in H6. simpl in H6.
    destruct ((si_task s =? task) && (si_idx s =? idx)) eqn:E1.
    + apply IH; auto. constructor; auto.
    + destruct ((si_task s =? task) && (si_idx s =? idx + 1)) eqn:E2.
      * apply IH; [lia|]. constructor; auto. eapply Forall_impl; [|exact H8].
            intros a. unfold tsile. rewrite !tss1d_cmp_le. simpl. lia.
      * destruct (IH (si_task s) (si_idx s) (si_idx s)) as [I1 [I2 I3]]; [lia|destruct s; auto|].
        split; [|split].
        -- constructor; auto. simpl. lia.
        -- constructor; auto. apply I3. simpl. lia.
        -- intros p Hp. constructor; [unfold bytask, sep; simpl; lia|]. apply I3. lia.
Qed.

Lemma si_inner_ok task l :
  StronglySorted bytask l -> Forall (fun x => task <= t_task x) l ->
  exists a b, si_inner task l = Ok (Z.of_nat (length a), b) /\ l = a ++ b /\
    Forall (fun x => t_task x = task) a /\ Forall (fun x => task < t_task x) b.
Proof.
  induction l as [|x l IH]; intros Hs Hf; simpl.
  - exists [], []. auto.
  - inversion Hs; subst. inversion Hf; subst.
    destruct (t_task x >? task) eqn:E.
    + exists [], (x :: l). repeat split; auto.
      constructor; [lia|]. eapply Forall_impl; [|exact H2]. unfold bytask; simpl; intros; lia.
    + replace (t_task x =? task) with true by lia. simpl.
      destruct (IH H1 H4) as [a [b [R [R1 [R2 R3]]]]].
      rewrite R. simpl. exists (x :: a), b. subst l. repeat split; auto.
      * f_equal. f_equal. simpl length. lia.
      * constructor; auto. lia.
Qed.

Lemma si_tasks_ok n : forall task off l,
  StronglySorted bytask l ->
  Forall (fun x => task <= t_task x < task + Z.of_nat n) l ->
  exists offs, si_tasks n task off l = Ok (offs, []) /\ length offs = S n /\
    (forall k, (k <= n)%nat -> nth_error offs k = Some (off + cnt_lt (task + Z.of_nat k) l)).
Proof.
  induction n as [|n IH]; intros task off l Hs Hf; simpl.
  - assert (l = []) by (destruct l; auto; inversion Hf; subst; lia).
    subst. exists [off]. repeat split; auto. intros k Hk.
    replace k with 0%nat by lia. simpl. f_equal. unfold cnt_lt; simpl. lia.
  - destruct (si_inner_ok task l Hs) as [a [b [R [R1 [R3 R4]]]]].
    { eapply Forall_impl; [|exact Hf]. simpl; intros; lia. }
    rewrite R. simpl. subst l.
    apply sorted_app_inv in Hs. destruct Hs as [Hs1 [Hs2 Hs3]].
    apply Forall_app in Hf. destruct Hf as [Hf1 Hf2].
    destruct (IH (task + 1) (off + Z.of_nat (length a)) b Hs2) as [offs [Q [Q2 Q3]]].
    { rewrite Forall_forall in *. intros x Hx. specialize (R4 x Hx). specialize (Hf2 x Hx). simpl in *. lia. }
    rewrite Q. simpl. eexists. split; [reflexivity|]. split; [simpl; lia|].
    intros k Hk. destruct k; simpl.
    + f_equal. rewrite cnt_lt_app.
      rewrite (cnt_lt_none _ a), (cnt_lt_none _ b); [lia| |].
      * eapply Forall_impl; [|exact R4]. simpl; intros; lia.
      * eapply Forall_impl; [|exact R3]. simpl; intros; lia.
    + rewrite Q3 by lia. f_equal. rewrite cnt_lt_app.
      rewrite (cnt_lt_all _ a).
      2:{ eapply Forall_impl; [|exact R3]. simpl; intros; lia. }
      replace (task + 1 + Z.of_nat k) with (task + Z.of_nat (S k)) by lia. lia.
Qed.

Lemma run_singles_ok s tids h : forall l,
  run_singles s tids h = Ok l ->
  arr (rl_tss1d l) = h /\ rl_trange l = None /\ rl_off l = None /\ rl_space l = s /\
  rl_tids l = tids /\ (rl_tss1d l = None <-> h = []) /\
  Forall (fun a => 0 <= si_task a < tids /\
           i0 (b_from (sp_box s)) <= si_idx a < i0 (b_to (sp_box s))) h.
Proof.
  unfold run_singles. intros l H.
  refine (ofold_ind _ (fun pre l => arr (rl_tss1d l) = pre /\ rl_trange l = None /\ rl_off l = None /\ rl_space l = s /\
  rl_tids l = tids /\ (rl_tss1d l = None <-> pre = []) /\
  Forall (fun a => 0 <= si_task a < tids /\
           i0 (b_from (sp_box s)) <= si_idx a < i0 (b_to (sp_box s))) pre) h _ l _ _ H).
  - simpl. repeat split; auto.
  - intros pre x post l0 l1 _ [A1 [A2 [A3 [A4 [A5 [A6 A7]]]]]] Hs.
    unfold rl_append_single1d in Hs.
    apply cassert_ok in Hs. destruct Hs as [B1 Hs].
    apply cassert_ok in Hs. destruct Hs as [B2 Hs].
    apply cassert_ok in Hs. destruct Hs as [B3 Hs].
    inversion Hs; subst; clear Hs; simpl. destruct x as [xt xi]; simpl in *.
    split; [reflexivity|]. split; auto. split; auto. split; auto. split; auto. split.
    + split; [discriminate|]. intros K. destruct (arr (rl_tss1d l0)); discriminate.
    + apply Forall_app. split; auto. constructor; auto. simpl. lia.
Qed.

Lemma freeze_singles_ok s tids h l qg qs m :
  run_singles s tids h = Ok l -> is_qsort tss1d_cmp qs -> h <> [] -> sp_dims s = 1%nat -> 0 <= tids ->
  exists l' x r, rl_freeze qg qs l m = Ok l' /\ Frozen l' /\ rl_space l' = s /\ rl_tids l' = tids /\
    qs h = x :: r /\ rl_trs l' = si_conv (si_task x) (si_idx x) (si_idx x) r /\
    StronglySorted tsile (x :: r) /\ Permutation h (x :: r).
Proof.
  intros H Hq Hne Hd Ht.
  destruct (run_singles_ok _ _ _ _ H) as [A1 [A2 [A3 [A4 [A5 [A6 A7]]]]]].
  destruct (Hq h) as [P S].
  unfold rl_freeze. rewrite A3. simpl.
  destruct (rl_tss1d l) as [si|] eqn:E; [|exfalso; apply Hne; apply A6; auto].
  simpl in A1. subst si.
  unfold updateOffsetsSI. rewrite E.
  destruct (qs h) as [|x r] eqn:Eq.
  { apply Permutation_sym, Permutation_nil in P. congruence. }
  destruct h as [|h0 h']; [congruence|]. simpl. rewrite A4, Hd. simpl. 
  replace (1 + si_count (si_task x) (si_idx x) r =? Z.of_nat (length (si_conv (si_task x) (si_idx x) (si_idx x) r)))
    with true by (rewrite si_conv_count; lia).
  simpl. rewrite A5.
  destruct (si_conv_shape r (si_task x) (si_idx x) (si_idx x)) as [I1 [I2 I3]]; [lia|destruct x; auto|].
  assert (B : StronglySorted bytask (si_conv (si_task x) (si_idx x) (si_idx x) r)).
  { eapply StronglySorted_impl; [|exact I2]. simpl; tauto. }
  assert (T : Forall (fun y => 0 <= t_task y < tids) (si_conv (si_task x) (si_idx x) (si_idx x) r)).
  { assert (T0 : Forall (fun y => 0 <= si_task y < tids) (x :: r)).
    { eapply Forall_perm; [exact P|]. eapply Forall_impl; [|exact A7]. simpl; tauto. }
    inversion T0; subst. apply (si_conv_tasks (fun z => 0 <= z < rl_tids l)); auto. }
  destruct (si_tasks_ok (Z.to_nat tids) 0 0 _ B) as [offs [Q1 [Q2 Q3]]].
  { eapply Forall_impl; [|exact T]. simpl; intros; lia. }
  rewrite Q1. simpl. eexists _, x, r. split; [reflexivity|].
  split; [|repeat split; auto].
  constructor; simpl; auto; try lia.
  - rewrite A5. auto.
  - exists offs. split; auto. split; [lia|]. intros t Htt. apply aread_ok. split; [lia|].
    rewrite Q3 by lia. rewrite Z2Nat.id by lia. rewrite !Z.add_0_l. reflexivity.
Qed.

Lemma freeze_owns_singles : forall s tids h l qg qs m,
  0 <= tids -> is_qsort tss1d_cmp qs -> h <> [] -> sp_dims s = 1%nat ->
  run_singles s tids h = Ok l ->
  exists l', rl_freeze qg qs l m = Ok l' /\
    (forall t i, Owns l' t i <-> In (mkTsi t (i0 i)) h) /\
    (forall t n k x y, 0 <= t < tids -> n < k ->
       rl_tidrange l' t n = Ok (Some x) -> rl_tidrange l' t k = Ok (Some y) ->
       i0 (b_to (t_box x)) < i0 (b_from (t_box y)) /\ t_mapNo x = 0 /\ t_mapNo y = 0).
Proof.
  intros s tids h l qg qs m Ht Hq Hne Hd H.
  destruct (freeze_singles_ok s tids h l qg qs m H Hq Hne Hd Ht) as [l' [x [r [G1 [G2 [G3 [G4 [G5 [G6 [G7 G8]]]]]]]]]].
  exists l'. split; auto. split.
  - intros t i. rewrite frozen_owns by auto. rewrite G3, Hd.
    change (owned 1 (rl_trs l') t i <-> In (mkTsi t (i0 i)) h). rewrite G6.
    rewrite si_conv_owned; [|lia|destruct x; auto].
    rewrite <- (Permutation_in' (eq_refl (mkTsi t (i0 i))) (Permutation_sym G8)).
    simpl. split.
    + intros [K|[s' [K1 [K2 K3]]]]; [left; destruct x; simpl in *; f_equal; lia|].
      right. destruct s'; simpl in *; subst. auto.
    + intros [K|K]; [left; subst x; simpl; lia|]. right. exists (mkTsi t (i0 i)). auto.
  - intros t n k a b Htt Hnk Ha Hb. rewrite <- G4 in Htt.
    rewrite frozen_tidrange in Ha, Hb by auto.
    destruct (n <? 0) eqn:E1; [discriminate|]. destruct (k <? 0) eqn:E2; [lia|].
    destruct (si_conv_shape r (si_task x) (si_idx x) (si_idx x)) as [I1 [I2 I3]]; [lia|destruct x; auto|].
    rewrite <- G6 in I1, I2.
    assert (Sp : StronglySorted sep (mine t (rl_trs l'))).
    { apply mine_sorted. eapply StronglySorted_impl; [|exact I2]. simpl; tauto. }
    inversion Ha as [Ha']. inversion Hb as [Hb'].
    assert (Ia : In a (mine t (rl_trs l'))) by (eapply nth_error_In; eauto).
    assert (Ib : In b (mine t (rl_trs l'))) by (eapply nth_error_In; eauto).
    apply filter_In in Ia. apply filter_In in Ib.
    rewrite Forall_forall in I1.
    destruct (I1 a) as [Ta [Ma _]]; [tauto|]. destruct (I1 b) as [Tb [Mb _]]; [tauto|].
    split; auto. eapply (StronglySorted_nth _ _ Sp (Z.to_nat n) (Z.to_nat k)); eauto; lia.
Qed.

(* ---- isAll, isSingle, isEqual ---- *)

Lemma isAll_loop_spec d sb : valid_dims d -> forall l i,
  isAll_loop d sb i l = true ->
  forall k x, nth_error l k = Some x -> t_task x = i + Z.of_nat k /\ EqBox d (t_box x) sb.
Proof.
  intros Hd. induction l as [|y l IH]; simpl; intros i H k x Hk; [destruct k; discriminate|].
  destruct (t_task y =? i) eqn:E1; simpl in H; [|discriminate].
  destruct (box_isEqual d (t_box y) sb) eqn:E2; simpl in H; [|discriminate].
  destruct k; simpl in Hk.
  - inversion Hk; subst. split; [lia|]. apply box_isEqual_sound; auto.
  - destruct (IH _ H _ _ Hk). split; [lia|auto].
Qed.

Lemma isAll_sound l : valid_dims (sp_dims (rl_space l)) -> Frozen l -> rl_isAll l = true ->
  forall t i, 0 <= t < rl_tids l -> InBox (sp_dims (rl_space l)) i (sp_box (rl_space l)) -> Owns l t i.
Proof.
  intros Hd F H t i Ht Hi. unfold rl_isAll in H.
  destruct (rl_count l =? rl_tids l) eqn:E; simpl in H; [|discriminate].
  apply frozen_owns; auto. pose proof (fz_count l F) as Hc.
  destruct (nth_error (rl_trs l) (Z.to_nat t)) as [x|] eqn:En.
  2:{ apply nth_error_None in En. lia. }
  destruct (isAll_loop_spec _ _ Hd _ _ H _ _ En) as [K1 K2].
  exists x. split; [eapply nth_error_In; eauto|]. split; [lia|]. apply K2; auto.
Qed.

Lemma isSingle_sound l t : valid_dims (sp_dims (rl_space l)) -> Frozen l ->
  rl_isSingle l = Ok t -> t <> -1 ->
  0 <= t < rl_tids l /\
  (forall i, InBox (sp_dims (rl_space l)) i (sp_box (rl_space l)) -> Owns l t i) /\
  (forall u i, Owns l u i -> u = t).
Proof.
  intros Hd F H Ht. unfold rl_isSingle in H. pose proof (fz_count l F) as Hc.
  destruct (rl_count l =? 1) eqn:E; simpl in H; [|congruence].
  apply obind_ok in H. destruct H as [x [Hx H]]. apply aread_ok in Hx. destruct Hx as [_ Hx].
  destruct (box_isEqual _ _ _) eqn:E2; simpl in H; [|congruence].
  inversion H; subst t. apply box_isEqual_sound in E2; auto.
  destruct (rl_trs l) as [|y [|z r]] eqn:Et; simpl in Hc; try lia.
  simpl in Hx. inversion Hx; subst y.
  pose proof (fz_tasks l F) as Tk. rewrite Et in Tk. inversion Tk; subst.
  split; [auto|]. split.
  - intros i Hi. apply frozen_owns; auto. exists x. rewrite Et. split; [now left|]. split; auto. apply E2; auto.
  - intros u i Hu. apply frozen_owns in Hu; auto. rewrite Et in Hu.
    destruct Hu as [y [[Hy|[]] [Hu _]]]. congruence.
Qed.

Lemma offs_equal_spec n : forall o1 o2, (n <= length o1)%nat -> (n <= length o2)%nat ->
  exists b, offs_equal n o1 o2 = Ok b /\
    (b = true -> forall k, (k < n)%nat -> nth_error o1 k = nth_error o2 k).
Proof.
  induction n as [|n IH]; intros o1 o2 H1 H2; simpl.
  - exists true. split; auto. intros; lia.
  - destruct o1 as [|a o1]; simpl in H1; [lia|]. destruct o2 as [|b o2]; simpl in H2; [lia|].
    destruct (a =? b) eqn:E; simpl.
    + destruct (IH o1 o2) as [c [R1 R2]]; [lia|lia|]. exists c. split; auto.
      intros Hc k Hk. destruct k; simpl; [f_equal; lia|]. apply R2; auto. lia.
    + exists false. split; auto. discriminate.
Qed.

Lemma trs_equal_spec d : valid_dims d -> forall l1 l2,
  length l1 = length l2 ->
  (forall k x y, nth_error l1 k = Some x -> nth_error l2 k = Some y -> t_task x = t_task y) ->
  exists b, trs_equal d l1 l2 = Ok b /\
   (b = true -> forall k x y, nth_error l1 k = Some x -> nth_error l2 k = Some y ->
      t_task x = t_task y /\ EqBox d (t_box x) (t_box y)).
Proof.
  intros Hd. induction l1 as [|a l1 IH]; intros [|b l2] Hl Ht; simpl in *; try discriminate.
  - exists true. split; auto. intros _ [|k]; discriminate.
  - pose proof (Ht 0%nat a b eq_refl eq_refl) as T0. replace (t_task a =? t_task b) with true by lia. simpl.
    destruct (box_isEqual d (t_box a) (t_box b)) eqn:E; simpl.
    + destruct (IH l2) as [c [R1 R2]]; [lia| |].
      { intros k x y Hx Hy. apply (Ht (S k)); auto. }
      exists c. split; auto. intros Hc [|k] x y Hx Hy; simpl in Hx, Hy.
      * inversion Hx; inversion Hy; subst. split; auto. apply box_isEqual_sound; auto.
      * eapply R2; eauto.
    + exists false. split; auto. discriminate.
Qed.

Lemma isEqual_sound l1 l2 : valid_dims (sp_dims (rl_space l1)) ->
  rl_space l1 = rl_space l2 -> Frozen l1 -> Frozen l2 ->
  exists b, rl_isEqual l1 l2 = Ok b /\ (b = true -> forall t i, Owns l1 t i <-> Owns l2 t i).
Proof.
  intros Hd Hsp F1 F2. unfold rl_isEqual.
  destruct (fz_off l1 F1) as [o1 [O1 [L1 R1]]]. destruct (fz_off l2 F2) as [o2 [O2 [L2 R2]]].
  rewrite O1, O2.
  destruct (rl_tids l1 =? rl_tids l2) eqn:E1; simpl; [|exists false; split; [auto|discriminate]].
  rewrite <- Hsp, space_eq_refl. simpl.
  destruct (rl_count l1 =? rl_count l2) eqn:E2; simpl; [|exists false; split; [auto|discriminate]].
  pose proof (fz_tids l1 F1).
  destruct (offs_equal_spec (Z.to_nat (rl_tids l1)) o1 o2) as [b [B1 B2]]; [lia|lia|].
  rewrite B1. simpl. destruct b; simpl; [|exists false; split; [auto|discriminate]].
  specialize (B2 eq_refl).
  (* counts below t agree for all t *)
  assert (C : forall t, 0 <= t <= rl_tids l1 -> cnt_lt t (rl_trs l1) = cnt_lt t (rl_trs l2)).
  { intros t Ht. destruct (Z.eq_dec t (rl_tids l1)).
    - subst t. rewrite !cnt_lt_all.
      + pose proof (fz_count _ F1). pose proof (fz_count _ F2). lia.
      + eapply Forall_impl; [|exact (fz_tasks _ F2)]. simpl. intros; lia.
      + eapply Forall_impl; [|exact (fz_tasks _ F1)]. simpl. intros; lia.
    - pose proof (R1 t Ht) as A1. pose proof (R2 t ltac:(lia)) as A2.
      apply aread_ok in A1. apply aread_ok in A2.
      rewrite B2 in A1 by lia. destruct A1, A2. congruence. }
  destruct (trs_equal_spec _ Hd (rl_trs l1) (rl_trs l2)) as [b [T1 T2]].
  { pose proof (fz_count _ F1). pose proof (fz_count _ F2). lia. }
  { intros k x y Hx Hy.
    assert (Bx : 0 <= t_task x < rl_tids l1).
    { pose proof (fz_tasks _ F1) as T. rewrite Forall_forall in T. apply T. eapply nth_error_In; eauto. }
    assert (By : 0 <= t_task y < rl_tids l1).
    { pose proof (fz_tasks _ F2) as T. rewrite Forall_forall in T.
      assert (0 <= t_task y < rl_tids l2) by (apply T; eapply nth_error_In; eauto). lia. }
    pose proof (sorted_cnt_nth _ (fz_sorted _ F1) _ _ (t_task y) Hx) as P1.
    pose proof (sorted_cnt_nth _ (fz_sorted _ F2) _ _ (t_task y) Hy) as P2.
    pose proof (sorted_cnt_nth _ (fz_sorted _ F1) _ _ (t_task x) Hx) as P3.
    pose proof (sorted_cnt_nth _ (fz_sorted _ F2) _ _ (t_task x) Hy) as P4.
    rewrite C in P1 by lia. rewrite C in P3 by lia. lia. }
  exists b. split; auto. intros Hb. specialize (T2 Hb). intros t i.
  rewrite !frozen_owns by auto. rewrite <- Hsp.
  assert (Hlen : length (rl_trs l1) = length (rl_trs l2)).
  { pose proof (fz_count _ F1). pose proof (fz_count _ F2). lia. }
  split; intros [x [Hx [K1 K2]]]; apply In_nth_error in Hx; destruct Hx as [k Hk].
  - destruct (nth_error (rl_trs l2) k) as [y|] eqn:Ey.
    2:{ apply nth_error_None in Ey. apply nth_error_Some_lt in Hk. lia. }
    destruct (T2 _ _ _ Hk Ey) as [U1 U2]. exists y. split; [eapply nth_error_In; eauto|].
    split; [congruence|]. apply U2; auto.
  - destruct (nth_error (rl_trs l1) k) as [y|] eqn:Ey.
    2:{ apply nth_error_None in Ey. apply nth_error_Some_lt in Hk. lia. }
    destruct (T2 _ _ _ Ey Hk) as [U1 U2]. exists y. split; [eapply nth_error_In; eauto|].
    split; [congruence|]. apply U2; auto.
Qed.
