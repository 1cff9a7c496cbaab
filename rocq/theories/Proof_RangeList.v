(* Proofs about Model_RangeList: appending, freezing, enumeration *)
From Coq Require Import ZArith List Bool Lia ZifyBool ZifyNat Permutation Sorted.
From Verif Require Import Base Model_Space Spec_Space Proof_Space Model_RangeList Spec_RangeList.
Import ListNotations.
Open Scope Z_scope.

(* --- insertion sort is a qsort for total preorders --- *)

Lemma ins_perm {A} (cmp : A -> A -> Z) x l : Permutation (x :: l) (ins cmp x l).
Proof.
  induction l as [|y l IH]; simpl; auto.
  destruct (cmp x y <=? 0); auto.
  rewrite perm_swap. now apply perm_skip.
Qed.

Lemma ins_sorted {A} (cmp : A -> A -> Z) x l :
  (forall a b, cmp a b <= 0 \/ cmp b a <= 0) ->
  (forall a b c, cmp a b <= 0 -> cmp b c <= 0 -> cmp a c <= 0) ->
  StronglySorted (fun a b => cmp a b <= 0) l ->
  StronglySorted (fun a b => cmp a b <= 0) (ins cmp x l).
Proof.
  intros Htot Htr. induction 1 as [|y l Hs IH Hf]; simpl.
  - repeat constructor.
  - destruct (cmp x y <=? 0) eqn:E.
    + constructor; [constructor; auto|]. constructor; [lia|].
      eapply Forall_impl; [|exact Hf]. simpl. intros a Ha. eapply Htr; [|exact Ha]. lia.
    + constructor; auto.
      assert (Hyx : cmp y x <= 0) by (destruct (Htot x y); lia).
      apply Forall_forall. intros z Hz.
      apply (Permutation_in _ (Permutation_sym (ins_perm cmp x l))) in Hz.
      destruct Hz as [Hz|Hz]; [subst; auto|]. rewrite Forall_forall in Hf; auto.
Qed.

Lemma isort_is_qsort {A} (cmp : A -> A -> Z) :
  (forall a b, cmp a b <= 0 \/ cmp b a <= 0) ->
  (forall a b c, cmp a b <= 0 -> cmp b c <= 0 -> cmp a c <= 0) ->
  is_qsort cmp (isort cmp).
Proof.
  intros Htot Htr l. unfold isort. induction l as [|x l [IH1 IH2]]; simpl.
  - split; constructor.
  - split.
    + rewrite <- ins_perm. now apply perm_skip.
    + apply ins_sorted; auto.
Qed.

(* --- comparison functions --- *)

Lemma trgen_cmp_le a b :
  trgen_cmp a b <= 0 <->
  (t_task a < t_task b \/
   t_task a = t_task b /\
   (t_tag a < t_tag b \/
    t_tag a = t_tag b /\ i0 (b_from (t_box a)) <= i0 (b_from (t_box b)))).
Proof.
  unfold trgen_cmp.
  destruct (t_task a =? t_task b) eqn:E1; [|lia].
  destruct (t_tag a =? t_tag b) eqn:E2; [|lia].
  destruct (_ >? _) eqn:E3; [lia|].
  destruct (i0 _ =? i0 _) eqn:E4; lia.
Qed.

Lemma tss1d_cmp_le a b :
  tss1d_cmp a b <= 0 <->
  (si_task a < si_task b \/ si_task a = si_task b /\ si_idx a <= si_idx b).
Proof.
  unfold tss1d_cmp.
  destruct (si_task a =? si_task b) eqn:E1; [|lia].
  destruct (_ >? _) eqn:E3; [lia|].
  destruct (si_idx a =? si_idx b) eqn:E4; lia.
Qed.

Lemma trgen_cmpfrom_le a b :
  trgen_cmpfrom a b <= 0 <-> i0 (b_from (t_box a)) <= i0 (b_from (t_box b)).
Proof.
  unfold trgen_cmpfrom. destruct (_ >? _) eqn:E3; [lia|].
  destruct (i0 _ =? i0 _) eqn:E4; lia.
Qed.

Lemma isort_trgen : is_qsort trgen_cmp (isort trgen_cmp).
Proof. apply isort_is_qsort; intros *; rewrite ?trgen_cmp_le; lia. Qed.
Lemma isort_tss1d : is_qsort tss1d_cmp (isort tss1d_cmp).
Proof. apply isort_is_qsort; intros *; rewrite ?tss1d_cmp_le; lia. Qed.
Lemma isort_from : is_qsort trgen_cmpfrom (isort trgen_cmpfrom).
Proof. apply isort_is_qsort; intros *; rewrite ?trgen_cmpfrom_le; lia. Qed.

(* --- general list facts --- *)

Lemma StronglySorted_impl {A} (P Q : A -> A -> Prop) l :
  (forall a b, P a b -> Q a b) -> StronglySorted P l -> StronglySorted Q l.
Proof.
  intros H. induction 1; constructor; auto. eapply Forall_impl; [|eassumption]. auto.
Qed.

Lemma StronglySorted_nth {A} (P : A -> A -> Prop) l :
  StronglySorted P l -> forall n m x y, (n < m)%nat ->
  nth_error l n = Some x -> nth_error l m = Some y -> P x y.
Proof.
  induction 1 as [|a l Hs IH Hf]; intros n m x y Hnm Hn Hm.
  - destruct n; discriminate.
  - destruct m; [lia|]. simpl in Hm. destruct n; simpl in Hn.
    + inversion Hn; subst. rewrite Forall_forall in Hf. apply Hf. eapply nth_error_In; eauto.
    + eapply (IH n m); eauto. lia.
Qed.

Lemma aread_ok {A} (l : list A) n x :
  aread l n = Ok x <-> 0 <= n /\ nth_error l (Z.to_nat n) = Some x.
Proof.
  unfold aread. destruct (n <? 0) eqn:E.
  - split; [discriminate|lia].
  - destruct (nth_error l (Z.to_nat n)) eqn:E2; split; intros H.
    + inversion H; subst. split; [lia|auto].
    + destruct H as [_ H]. inversion H; auto.
    + discriminate.
    + destruct H; discriminate.
Qed.

Lemma aread_lt {A} (l : list A) n :
  0 <= n < Z.of_nat (length l) -> exists x, aread l n = Ok x.
Proof.
  intros H. destruct (nth_error l (Z.to_nat n)) eqn:E.
  - exists a. apply aread_ok. split; [lia|auto].
  - apply nth_error_None in E. lia.
Qed.

(* --- updateOffsets --- *)

(* entry without the map number *)
Definition key (x : trg) : Z * box * Z := (t_task x, t_box x, t_tag x).

Definition bytask (a b : trg) : Prop := t_task a <= t_task b.

Definition cnt_lt (t : Z) (l : list trg) : Z :=
  Z.of_nat (length (filter (fun x => t_task x <? t) l)).

Lemma key_eq x y : key x = key y -> t_task x = t_task y /\ t_box x = t_box y /\ t_tag x = t_tag y.
Proof. unfold key. intros H; inversion H; auto. Qed.

Lemma map_key_nth l l' n x :
  map key l = map key l' -> nth_error l n = Some x ->
  exists y, nth_error l' n = Some y /\ key y = key x.
Proof.
  intros H Hn. pose proof (map_nth_error key n l Hn) as H1. rewrite H in H1.
  destruct (nth_error l' n) eqn:E.
  - exists t. split; auto. pose proof (map_nth_error key n l' E). congruence.
  - apply nth_error_None in E. assert (nth_error (map key l') n = None).
    { apply nth_error_None. rewrite map_length. auto. } congruence.
Qed.

Lemma cnt_lt_key t l l' : map key l = map key l' -> cnt_lt t l = cnt_lt t l'.
Proof.
  unfold cnt_lt. revert l'. induction l as [|x l IH]; intros [|y l'] H; simpl in *; try discriminate; auto.
  inversion H. specialize (IH _ H4). rewrite H1. destruct (t_task y <? t); simpl; lia.
Qed.

Lemma cnt_lt_app t l1 l2 : cnt_lt t (l1 ++ l2) = cnt_lt t l1 + cnt_lt t l2.
Proof. unfold cnt_lt. rewrite filter_app, app_length. lia. Qed.

Lemma cnt_lt_all t l : Forall (fun x => t_task x < t) l -> cnt_lt t l = Z.of_nat (length l).
Proof.
  unfold cnt_lt. induction 1; simpl; auto.
  destruct (t_task x <? t) eqn:E; simpl; lia.
Qed.

Lemma cnt_lt_none t l : Forall (fun x => t <= t_task x) l -> cnt_lt t l = 0.
Proof.
  unfold cnt_lt. induction 1; simpl; auto.
  destruct (t_task x <? t) eqn:E; simpl; lia.
Qed.

Lemma sorted_app_inv {A} (P : A -> A -> Prop) l1 l2 :
  StronglySorted P (l1 ++ l2) -> StronglySorted P l1 /\ StronglySorted P l2 /\
  forall x y, In x l1 -> In y l2 -> P x y.
Proof.
  induction l1 as [|a l1 IH]; simpl; intros H.
  - repeat split; auto; [constructor|intros ? ? []].
  - inversion H; subst. destruct (IH H2) as [I1 [I2 I3]].
    rewrite Forall_app in H3. destruct H3 as [F1 F2]. repeat split; auto.
    + constructor; auto.
    + intros x y [E|Hx] Hy; [subst|eauto]. rewrite Forall_forall in F2; auto.
Qed.

Lemma sorted_app {A} (P : A -> A -> Prop) l1 l2 :
  StronglySorted P l1 -> StronglySorted P l2 ->
  (forall x y, In x l1 -> In y l2 -> P x y) -> StronglySorted P (l1 ++ l2).
Proof.
  induction 1 as [|a l1 Hs IH Hf]; simpl; intros H2 H3; auto.
  constructor; auto. apply Forall_app. split; auto.
  apply Forall_forall. intros. apply H3; auto.
Qed.

Lemma uo_inner_ok task l : forall mapNo lastTag,
  StronglySorted bytask l -> Forall (fun x => task <= t_task x) l ->
  exists a b l1, uo_inner task mapNo lastTag l = Ok (a, b) /\ l = l1 ++ b /\
    map key a = map key l1 /\
    Forall (fun x => t_task x = task) l1 /\ Forall (fun x => task < t_task x) b.
Proof.
  induction l as [|x l IH]; intros mapNo lastTag Hs Hf; simpl.
  - exists [], [], []. repeat split; auto.
  - inversion Hs; subst. inversion Hf; subst.
    destruct (t_task x >? task) eqn:E.
    + exists [], (x :: l), []. repeat split; auto.
      constructor; [lia|]. eapply Forall_impl; [|exact H2]. unfold bytask; simpl; intros; lia.
    + replace (t_task x =? task) with true by lia. simpl.
      destruct (IH (if (t_tag x =? 0) || negb (t_tag x =? lastTag) then mapNo + 1 else mapNo)
                   (if (t_tag x =? 0) || negb (t_tag x =? lastTag) then t_tag x else lastTag)
                   H1 H4) as [a [b [l1 [R [R1 [R2 [R3 R4]]]]]]].
      rewrite R. simpl.
      eexists _, b, (x :: l1). split; [reflexivity|]. subst l. simpl. rewrite R2.
      repeat split; auto. constructor; auto. lia.
Qed.

Lemma uo_tasks_ok n : forall task off l,
  StronglySorted bytask l ->
  Forall (fun x => task <= t_task x < task + Z.of_nat n) l ->
  exists offs out, uo_tasks n task off l = Ok (offs, out, []) /\
    map key out = map key l /\ length offs = S n /\
    (forall k, (k <= n)%nat -> nth_error offs k = Some (off + cnt_lt (task + Z.of_nat k) l)).
Proof.
  induction n as [|n IH]; intros task off l Hs Hf; simpl.
  - assert (l = []).
    { destruct l; auto. inversion Hf; subst. lia. }
    subst. exists [off], []. repeat split; auto. intros k Hk.
    replace k with 0%nat by lia. simpl. f_equal. unfold cnt_lt; simpl. lia.
  - destruct (uo_inner_ok task l (-1) (-1) Hs) as [a [b [l1 [R [R1 [R2 [R3 R4]]]]]]].
    { eapply Forall_impl; [|exact Hf]. simpl; intros; lia. }
    rewrite R. simpl. subst l.
    apply sorted_app_inv in Hs. destruct Hs as [Hs1 [Hs2 Hs3]].
    apply Forall_app in Hf. destruct Hf as [Hf1 Hf2].
    destruct (IH (task + 1) (off + Z.of_nat (length a)) b Hs2) as [offs [out [Q [Q1 [Q2 Q3]]]]].
    { rewrite Forall_forall in *. intros x Hx. specialize (R4 x Hx). specialize (Hf2 x Hx). simpl in *. lia. }
    rewrite Q. simpl. eexists _, _. split; [reflexivity|]. split.
    { rewrite !map_app. congruence. }
    split; [simpl; lia|].
    assert (La : length a = length l1).
    { rewrite <- (map_length key a), R2, map_length. auto. }
    intros k Hk. destruct k; simpl.
    + f_equal. rewrite cnt_lt_app.
      rewrite (cnt_lt_none _ l1), (cnt_lt_none _ b); [lia| |].
      * eapply Forall_impl; [|exact R4]. simpl; intros; lia.
      * eapply Forall_impl; [|exact R3]. simpl; intros; lia.
    + rewrite Q3 by lia. f_equal. rewrite cnt_lt_app.
      rewrite (cnt_lt_all _ l1).
      2:{ eapply Forall_impl; [|exact R3]. simpl; intros; lia. }
      replace (task + 1 + Z.of_nat k) with (task + Z.of_nat (S k)) by lia. lia.
Qed.

(* a frozen list *)
Record Frozen (l : rlist) : Prop := {
  fz_si : rl_tss1d l = None;
  fz_tids : 0 <= rl_tids l;
  fz_sorted : StronglySorted bytask (rl_trs l);
  fz_tasks : Forall (fun x => 0 <= t_task x < rl_tids l) (rl_trs l);
  fz_count : rl_count l = Z.of_nat (length (rl_trs l));
  fz_off : exists offs, rl_off l = Some offs /\ Z.of_nat (length offs) = rl_tids l + 1 /\
             forall t, 0 <= t <= rl_tids l -> aread offs t = Ok (cnt_lt t (rl_trs l)) }.

Lemma sorted_cnt_nth l : StronglySorted bytask l ->
  forall n x t, nth_error l n = Some x ->
  (t_task x < t <-> (n < Z.to_nat (cnt_lt t l))%nat).
Proof.
  induction 1 as [|a l Hs IH Hf]; intros n x t Hn.
  - destruct n; discriminate.
  - unfold cnt_lt in *. simpl. destruct n; simpl in Hn.
    + inversion Hn; subst. destruct (t_task x <? t) eqn:E; simpl.
      * split; intros; lia.
      * assert (filter (fun x => t_task x <? t) l = []) as ->.
        { clear - Hf E. induction Hf; simpl; auto. unfold bytask in H.
          destruct (t_task x0 <? t) eqn:E2; [lia|]. auto. }
        simpl. lia.
    + specialize (IH n x t Hn).
      assert (t_task a <= t_task x).
      { rewrite Forall_forall in Hf. apply Hf. eapply nth_error_In; eauto. }
      destruct (t_task a <? t) eqn:E; simpl; lia.
Qed.

Lemma cnt_lt_mono t t' l : t <= t' -> cnt_lt t l <= cnt_lt t' l.
Proof.
  intros H. unfold cnt_lt. induction l as [|x l IH]; simpl; [lia|].
  destruct (t_task x <? t) eqn:E; destruct (t_task x <? t') eqn:E2; simpl; lia.
Qed.

Lemma cnt_lt_bound t l : 0 <= cnt_lt t l <= Z.of_nat (length l).
Proof.
  unfold cnt_lt. induction l as [|x l IH]; simpl; [lia|].
  destruct (t_task x <? t) eqn:E; simpl; lia.
Qed.

Definition mine (t : Z) (l : list trg) : list trg := filter (fun x => t_task x =? t) l.

(* entries of task t are the slice [cnt_lt t, cnt_lt (t+1)) *)
Lemma sorted_mine_nth l t : StronglySorted bytask l ->
  forall k, nth_error (mine t l) k =
    if Z.of_nat k <? cnt_lt (t + 1) l - cnt_lt t l
    then nth_error l (Z.to_nat (cnt_lt t l) + k) else None.
Proof.
  induction 1 as [|a l Hs IH Hf]; intros k.
  - unfold mine, cnt_lt; simpl. destruct k; simpl; auto.
  - assert (G1 : forall u, u <= t_task a -> cnt_lt u l = 0).
    { intros u Hu. apply cnt_lt_none. eapply Forall_impl; [|exact Hf]. unfold bytask. simpl. intros; lia. }
    assert (G2 : forall u, cnt_lt u (a :: l) = (if t_task a <? u then 1 else 0) + cnt_lt u l).
    { intros u. unfold cnt_lt. simpl. destruct (t_task a <? u); simpl; lia. }
    rewrite !G2. unfold mine in *. simpl.
    pose proof (cnt_lt_bound t l) as B1.
    destruct (t_task a =? t) eqn:E.
    + replace (t_task a <? t) with false by lia.
      replace (t_task a <? t + 1) with true by lia.
      rewrite (G1 t) in * by lia.
      destruct k; cbn [nth_error].
      * pose proof (cnt_lt_bound (t+1) l). replace (_ <? _) with true by lia. reflexivity.
      * rewrite IH. replace (Z.to_nat (0 + 0) + S k)%nat with (S k) by lia.
        replace (Z.to_nat 0 + k)%nat with k by lia. cbn [nth_error].
        destruct (Z.of_nat k <? cnt_lt (t+1) l - 0) eqn:E1;
        destruct (Z.of_nat (S k) <? _) eqn:E2; auto; lia.
    + destruct (t_task a <? t) eqn:E1.
      * replace (t_task a <? t + 1) with true by lia.
        rewrite IH.
        replace (Z.to_nat (1 + cnt_lt t l) + k)%nat with (S (Z.to_nat (cnt_lt t l) + k)) by lia.
        cbn [nth_error].
        replace (1 + cnt_lt (t + 1) l - (1 + cnt_lt t l)) with (cnt_lt (t + 1) l - cnt_lt t l) by lia.
        reflexivity.
      * replace (t_task a <? t + 1) with false by lia.
        rewrite IH, !G1 by lia.
        replace (Z.of_nat k <? 0 - 0) with false by lia.
        replace (Z.of_nat k <? 0 + 0 - (0 + 0)) with false by lia. auto.
Qed.

Lemma mine_length l t : StronglySorted bytask l ->
  Z.of_nat (length (mine t l)) = cnt_lt (t + 1) l - cnt_lt t l.
Proof.
  intros Hs. unfold mine, cnt_lt. clear Hs.
  induction l as [|x l IH]; simpl; auto.
  destruct (t_task x =? t) eqn:E; destruct (t_task x <? t) eqn:E1;
  destruct (t_task x <? t + 1) eqn:E2; simpl; lia.
Qed.

Section Queries.
  Variable l : rlist.
  Hypothesis F : Frozen l.

  Lemma frozen_tidrangecount t : 0 <= t < rl_tids l ->
    rl_tidrangecount l t = Ok (Z.of_nat (length (mine t (rl_trs l)))).
  Proof.
    intros Ht. destruct F. destruct fz_off0 as [offs [Ho [Hl Hr]]].
    unfold rl_tidrangecount. rewrite Ho.
    replace ((0 <=? t) && (t <? rl_tids l)) with true by lia. simpl.
    rewrite (Hr (t + 1)), (Hr t) by lia. simpl. rewrite mine_length; auto.
  Qed.

  Lemma frozen_tidrange t n : 0 <= t < rl_tids l -> 
    rl_tidrange l t n = Ok (if n <? 0 then None else nth_error (mine t (rl_trs l)) (Z.to_nat n)).
  Proof.
    intros Ht. destruct F. destruct fz_off0 as [offs [Ho [Hl Hr]]].
    unfold rl_tidrange. rewrite Ho.
    replace ((0 <=? t) && (t <? rl_tids l)) with true by lia. simpl.
    rewrite (Hr (t + 1)), (Hr t) by lia. simpl.
    destruct (n <? 0) eqn:E; simpl; auto.
    rewrite sorted_mine_nth by auto. rewrite Z2Nat.id by lia.
    destruct (n >=? _) eqn:E2.
    - replace (n <? _) with false by lia. auto.
    - replace (n <? _) with true by lia.
      pose proof (cnt_lt_bound t (rl_trs l)). pose proof (cnt_lt_bound (t+1) (rl_trs l)).
      destruct (nth_error (rl_trs l) (Z.to_nat (cnt_lt t (rl_trs l)) + Z.to_nat n)) as [x|] eqn:E3.
      2:{ apply nth_error_None in E3. lia. }
      assert (A : aread (rl_trs l) (cnt_lt t (rl_trs l) + n) = Ok x).
      { apply aread_ok. split; [lia|].
        replace (Z.to_nat _) with (Z.to_nat (cnt_lt t (rl_trs l)) + Z.to_nat n)%nat by lia. auto. }
      rewrite A. simpl.
      pose proof (sorted_cnt_nth _ fz_sorted0 _ _ t E3).
      pose proof (sorted_cnt_nth _ fz_sorted0 _ _ (t+1) E3).
      replace (t_task x =? t) with true by lia. simpl.
      unfold rl_taskrange. replace (_ >=? _) with false by lia. rewrite A. reflexivity.
  Qed.

  Lemma frozen_tidrange_out t n : ~ (0 <= t < rl_tids l) -> rl_tidrange l t n = Abort.
  Proof.
    intros Ht. destruct F. destruct fz_off0 as [offs [Ho [Hl Hr]]].
    unfold rl_tidrange. rewrite Ho.
    replace ((0 <=? t) && (t <? rl_tids l)) with false by lia. reflexivity.
  Qed.

  Lemma frozen_owns t i :
    Owns l t i <-> exists x, In x (rl_trs l) /\ t_task x = t /\ InBox (sp_dims (rl_space l)) i (t_box x).
  Proof.
    split.
    - intros [n [x [H1 H2]]].
      assert (Ht : 0 <= t < rl_tids l).
      { destruct (Z_lt_dec t 0); [rewrite frozen_tidrange_out in H1 by lia; discriminate|].
        destruct (Z_lt_dec t (rl_tids l)); [lia|rewrite frozen_tidrange_out in H1 by lia; discriminate]. }
      rewrite frozen_tidrange in H1 by auto. destruct (n <? 0); [discriminate|].
      inversion H1. apply nth_error_In in H0. unfold mine in H0. apply filter_In in H0.
      exists x. split; [tauto|]. split; auto. lia.
    - intros [x [H1 [H2 H3]]].
      assert (Ht : 0 <= t < rl_tids l).
      { destruct F. rewrite Forall_forall in fz_tasks0. specialize (fz_tasks0 _ H1). lia. }
      assert (Hm : In x (mine t (rl_trs l))).
      { apply filter_In. split; auto. lia. }
      apply In_nth_error in Hm. destruct Hm as [n Hn].
      exists (Z.of_nat n), x. split; auto. rewrite frozen_tidrange by auto.
      replace (Z.of_nat n <? 0) with false by lia. rewrite Nat2Z.id. congruence.
  Qed.
End Queries.

(* --- freezing generic ranges --- *)

Lemma Forall_task_key (P : Z -> Prop) l : forall l', map key l = map key l' ->
  Forall (fun x => P (t_task x)) l -> Forall (fun x => P (t_task x)) l'.
Proof.
  induction l as [|x l IH]; intros [|y l'] H Hf; simpl in *; try discriminate; auto.
  inversion H; subst. inversion Hf; subst. constructor; [congruence|]. apply IH; auto.
Qed.

Lemma sorted_bytask_key l : forall l', map key l = map key l' ->
  StronglySorted bytask l -> StronglySorted bytask l'.
Proof.
  induction l as [|x l IH]; intros [|y l'] H Hs; simpl in *; try discriminate; auto.
  inversion H; subst. inversion Hs; subst. constructor; [apply IH; auto|].
  unfold bytask. rewrite <- H1. eapply (Forall_task_key (fun z => t_task x <= z)); eauto.
Qed.

Lemma updateOffsets_ok l :
  rl_tss1d l = None -> 0 <= rl_tids l ->
  StronglySorted bytask (rl_trs l) ->
  Forall (fun x => 0 <= t_task x < rl_tids l) (rl_trs l) ->
  exists l' , updateOffsets l = Ok l' /\ Frozen l' /\ map key (rl_trs l') = map key (rl_trs l) /\
    rl_space l' = rl_space l /\ rl_tids l' = rl_tids l /\
    exists offs, uo_tasks (Z.to_nat (rl_tids l)) 0 0 (rl_trs l) = Ok (offs, rl_trs l', []).
Proof.
  intros Hsi Ht Hs Hf. unfold updateOffsets.
  destruct (uo_tasks_ok (Z.to_nat (rl_tids l)) 0 0 (rl_trs l) Hs) as [offs [out [R [R1 [R2 R3]]]]].
  { eapply Forall_impl; [|exact Hf]. simpl; intros; lia. }
  rewrite R. simpl. eexists. split; [reflexivity|].
  set (l1 := match rl_trange l with None => l | Some _ => set_trange l (Some out) end).
  assert (E1 : rl_trs l1 = out).
  { unfold l1, rl_trs. destruct (rl_trange l) eqn:E; simpl; auto.
    rewrite E. simpl. unfold rl_trs in R1. rewrite E in R1. simpl in R1.
    destruct out; auto; discriminate. }
  assert (E2 : rl_trs (set_off l1 (Some offs)) = out) by (rewrite <- E1; reflexivity).
  assert (E3 : rl_tids l1 = rl_tids l) by (unfold l1; destruct (rl_trange l); auto).
  assert (E4 : rl_space l1 = rl_space l) by (unfold l1; destruct (rl_trange l); auto).
  assert (E5 : rl_tss1d l1 = None) by (unfold l1; destruct (rl_trange l); auto).
  split; [constructor|]; rewrite ?E2; simpl; rewrite ?E3; auto.
  - eapply sorted_bytask_key; [symmetry; exact R1|auto].
  - eapply (Forall_task_key (fun z => 0 <= z < rl_tids l)); [symmetry; exact R1|auto].
  - rewrite <- E1. unfold rl_count, rl_trs. simpl. rewrite E5. destruct (rl_trange l1); auto.
  - exists offs. split; auto. split; [lia|]. intros t Htt. apply aread_ok.
    split; [lia|]. rewrite R3 by lia. rewrite Z2Nat.id by lia.
    rewrite (cnt_lt_key _ _ _ R1), !Z.add_0_l. reflexivity.
  - split; auto. split; auto. split; auto. exists offs. auto.
Qed.

Lemma sortRanges_trs qg l :
  is_qsort trgen_cmp qg -> rl_trs (sortRanges qg l) = qg (rl_trs l) .
Proof.
  intros Hq. unfold sortRanges, rl_trs. destruct (rl_trange l) as [t|] eqn:E; simpl; rewrite ?E; simpl.
  - destruct t; simpl; rewrite ?E; simpl; auto.
    destruct (Hq []) as [P _]. apply Permutation_nil in P. auto.
  - destruct (Hq []) as [P _]. apply Permutation_nil in P. auto.
Qed.

Lemma sortRanges_same qg l :
  rl_space (sortRanges qg l) = rl_space l /\ rl_tids (sortRanges qg l) = rl_tids l /\
  rl_tss1d (sortRanges qg l) = rl_tss1d l /\
  (rl_trange (sortRanges qg l) = None <-> rl_trange l = None).
Proof.
  unfold sortRanges. destruct (rl_trange l) as [[|x t]|] eqn:E; simpl; rewrite ?E; intuition discriminate.
Qed.

(* merging *)

Definition owned (d : nat) (l : list trg) (t : Z) (i : index) : Prop :=
  exists x, In x l /\ t_task x = t /\ InBox d i (t_box x).

Lemma owned_cons d x l t i :
  owned d (x :: l) t i <-> (t_task x = t /\ InBox d i (t_box x)) \/ owned d l t i.
Proof.
  unfold owned; split.
  - intros [y [[E|H] K]]; subst; eauto.
  - intros [H|[y [H K]]]; [exists x|exists y]; simpl; tauto.
Qed.

Lemma owned_nil d t i : ~ owned d [] t i.
Proof. intros [x [[] _]]. Qed.

Definition trle (a b : trg) : Prop := trgen_cmp a b <= 0.

Lemma sorted2_inv {A} (P : A -> A -> Prop) a b l :
  StronglySorted P (a :: b :: l) ->
  P a b /\ Forall (P a) l /\ StronglySorted P (b :: l) /\ Forall (P b) l /\ StronglySorted P l.
Proof.
  intros H. inversion H as [|x y H1 H2]; subst. inversion H1; subst. inversion H2; subst. auto.
Qed.

Lemma merge_loop_owned t i : forall src cur,
  StronglySorted trle (cur :: src) ->
  (owned 1 (merge_loop cur src) t i <-> owned 1 (cur :: src) t i).
Proof.
  induction src as [|s src IH]; intros cur Hs; simpl; [tauto|].
  destruct (sorted2_inv _ _ _ _ Hs) as [H6 [H7 [H1 [H8 H5]]]].
  destruct (negb _ || negb _ || _) eqn:E.
  - rewrite (owned_cons 1 cur (merge_loop s src)), (IH s H1), !owned_cons. tauto.
  - unfold trle in H6. rewrite trgen_cmp_le in H6.
    destruct (i0 (b_to (t_box cur)) <? i0 (b_to (t_box s))) eqn:E2.
    + rewrite IH.
      2:{ constructor; [exact H5|]. eapply Forall_impl; [|exact H7]. intros a Ha.
          unfold trle in *. rewrite trgen_cmp_le in *. simpl. lia. }
      rewrite !owned_cons. simpl. unfold InBox. simpl.
      split.
      * intros [A|A]; auto.
        destruct (Z_lt_dec (i0 i) (i0 (b_to (t_box cur)))); [left|right; left]; lia.
      * intros [A|[A|A]]; auto; left; lia.
    + rewrite IH.
      2:{ constructor; auto. }
      rewrite !owned_cons. unfold InBox. split.
      * intros [A|A]; auto.
      * intros [A|[A|A]]; auto. left. lia.
Qed.

Lemma merge_loop_sorted : forall src cur,
  StronglySorted trle (cur :: src) -> StronglySorted trle (merge_loop cur src).
Proof.
  induction src as [|s src IH]; intros cur Hs; simpl; [auto|].
  destruct (sorted2_inv _ _ _ _ Hs) as [H6 [H7 [H1 [H8 H5]]]].
  destruct (negb _ || negb _ || _) eqn:E.
  - constructor; [apply IH; auto|].
    assert (G : forall src s, trle cur s -> Forall (trle cur) src -> Forall (trle cur) (merge_loop s src)).
    { clear. induction src as [|s' src IH]; intros s Hs Hf; simpl; [auto|].
      inversion Hf; subst. destruct (negb _ || negb _ || _) eqn:E; [constructor; auto|].
      destruct (_ <? _); apply IH; auto. }
    auto.
  - unfold trle in H6. rewrite trgen_cmp_le in H6.
    destruct (i0 (b_to (t_box cur)) <? i0 (b_to (t_box s))) eqn:E2; (apply IH; constructor; [exact H5|exact H7]).
Qed.

(* no two entries of one task and tag overlap or touch *)
Definition sep (a b : trg) : Prop :=
  t_task a = t_task b -> t_tag a = t_tag b ->
  i0 (b_to (t_box a)) < i0 (b_from (t_box b)).

Lemma merge_loop_sep : forall src cur,
  StronglySorted trle (cur :: src) ->
  StronglySorted sep (merge_loop cur src) /\
  (forall p, trle p cur -> 
     sep p cur -> Forall (sep p) (merge_loop cur src)).
Proof.
  induction src as [|s src IH]; intros cur Hs; simpl.
  - split; [repeat constructor|]. intros; constructor; auto.
  - destruct (sorted2_inv _ _ _ _ Hs) as [H6 [H7 [H1 [H8 H5]]]].
    destruct (negb _ || negb _ || _) eqn:E.
    + destruct (IH s H1) as [I1 I2]. split.
      * constructor; auto. apply I2; auto. unfold sep. lia.
      * intros p Hp Hq. constructor; auto. apply I2.
        -- unfold trle in *. rewrite trgen_cmp_le in *. lia.
        -- unfold trle, sep in *. rewrite trgen_cmp_le in *. lia.
    + unfold trle in H6. rewrite trgen_cmp_le in H6.
      destruct (i0 (b_to (t_box cur)) <? i0 (b_to (t_box s))) eqn:E2.
      * match goal with |- context[merge_loop ?c src] => destruct (IH c) as [I1 I2] end.
        { constructor; [exact H5|exact H7]. }
        split; [exact I1|]. intros p Hp Hq. apply I2; [exact Hp|exact Hq].
      * destruct (IH cur) as [I1 I2]; [constructor; auto|]. split; auto.
Qed.

Lemma merge_loop_tasks (P : Z -> Prop) : forall src cur,
  Forall (fun x => P (t_task x)) (cur :: src) -> Forall (fun x => P (t_task x)) (merge_loop cur src).
Proof.
  induction src as [|s src IH]; intros cur Hf; simpl; auto.
  inversion Hf; subst. inversion H2; subst.
  destruct (negb _ || negb _ || _); [constructor; auto|].
  destruct (_ <? _); apply IH; constructor; auto.
Qed.

(* --- histories of appends --- *)

Definition app_trg (a : appcall) : trg := mkTrg (a_task a) (r_box (a_range a)) (a_tag a) 0.

Lemma rl_append_ok l tid r tag l' :
  rl_append l tid r tag = Ok l' ->
  rl_trs l' = rl_trs l ++ [mkTrg tid (r_box r) tag 0] /\ rl_tss1d l = None /\
  rl_trange l' <> None /\
  rl_tss1d l' = None /\ rl_off l' = rl_off l /\ rl_space l' = rl_space l /\ rl_tids l' = rl_tids l /\
  rl_map_tid l' = rl_map_tid l /\
  0 <= tid < rl_tids l /\
  (exists rs, r_space r = Some rs /\ space_eq rs (rl_space l) = true) /\
  range_within_space r (rl_space l) = Ok true.
Proof.
  unfold rl_append. destruct (r_space r) as [rs|] eqn:Er; [|discriminate].
  intros H. apply cassert_ok in H. destruct H as [H1 H].
  apply cassert_ok in H. destruct H as [H2 H].
  apply cassert_ok in H. destruct H as [H3 H].
  apply obind_ok in H. destruct H as [w [Hw H]].
  apply cassert_ok in H. destruct H as [H4 H]. inversion H; subst; simpl.
  destruct (rl_tss1d l) eqn:E; try discriminate.
  repeat split; auto; try lia; try discriminate. eauto.
Qed.

Lemma run_appends_ok s tids h : forall l,
  run_appends s tids h = Ok l ->
  rl_trs l = map app_trg h /\ rl_tss1d l = None /\ rl_off l = None /\ rl_space l = s /\
  rl_tids l = tids /\ rl_map_tid l = -1 /\ (rl_trange l = None <-> h = []) /\
  Forall (fun a => 0 <= a_task a < tids /\
                   (exists rs, r_space (a_range a) = Some rs /\ space_eq rs s = true) /\
                   range_within_space (a_range a) s = Ok true) h.
Proof.
  unfold run_appends. intros l H.
  refine (ofold_ind _ (fun pre l => rl_trs l = map app_trg pre /\ rl_tss1d l = None /\ rl_off l = None /\ rl_space l = s /\
  rl_tids l = tids /\ rl_map_tid l = -1 /\ (rl_trange l = None <-> pre = []) /\
  Forall (fun a => 0 <= a_task a < tids /\
                   (exists rs, r_space (a_range a) = Some rs /\ space_eq rs s = true) /\
                   range_within_space (a_range a) s = Ok true) pre) h _ l _ _ H).
  - simpl. repeat split; auto.
  - intros pre x post l0 l1 _ [A1 [A2 [A3 [A4 [A5 [A6 [A8 A7]]]]]]] Hs.
    apply rl_append_ok in Hs. destruct Hs as [B1 [B2 [Bt [B3 [B4 [B5 [B6 [B7 [B8 [B9 B10]]]]]]]]]].
    rewrite B1, A1, map_app, A4 in *. repeat split; auto; try congruence.
    + intros K. destruct pre; discriminate.
    + apply Forall_app. split; auto. constructor; auto. rewrite A5 in B8. auto.
Qed.

Lemma bytask_of_trle l : StronglySorted trle l -> StronglySorted bytask l.
Proof.
  apply StronglySorted_impl. intros a b H. unfold trle in H. rewrite trgen_cmp_le in H.
  unfold bytask. lia.
Qed.

Lemma Forall_perm {A} (P : A -> Prop) l l' : Permutation l l' -> Forall P l -> Forall P l'.
Proof.
  intros Hp Hf. rewrite Forall_forall in *. intros x Hx. apply Hf.
  eapply Permutation_in; [apply Permutation_sym; eauto|auto].
Qed.

Lemma owned_perm d l l' t i : Permutation l l' -> (owned d l t i <-> owned d l' t i).
Proof.
  intros Hp. unfold owned. split; intros [x [H K]]; exists x; split; auto.
  - eapply Permutation_in; eauto.
  - eapply Permutation_in; [apply Permutation_sym|]; eauto.
Qed.

Lemma owned_key d l l' t i : map key l = map key l' -> (owned d l t i <-> owned d l' t i).
Proof.
  assert (G : forall l l', map key l = map key l' -> owned d l t i -> owned d l' t i).
  { intros l0 l0' H [x [Hx [H1 H2]]]. apply In_nth_error in Hx. destruct Hx as [n Hn].
    destruct (map_key_nth _ _ _ _ H Hn) as [y [Hy Hk]]. apply key_eq in Hk.
    destruct Hk as [K1 [K2 K3]]. exists y. split; [eapply nth_error_In; eauto|].
    rewrite K1, K2. auto. }
  split; apply G; auto.
Qed.

(* freezing generic ranges: never fails unless merging is requested for an empty
   list or for more than one dimension *)
Lemma freeze_gen_ok qg qs l m :
  is_qsort trgen_cmp qg ->
  rl_tss1d l = None -> rl_off l = None -> 0 <= rl_tids l ->
  Forall (fun x => 0 <= t_task x < rl_tids l) (rl_trs l) ->
  (m = true -> rl_trs l <> [] /\ sp_dims (rl_space l) = 1%nat) ->
  exists l', rl_freeze qg qs l m = Ok l' /\ Frozen l' /\
    rl_space l' = rl_space l /\ rl_tids l' = rl_tids l /\
    map key (rl_trs l') =
      map key (if m then match qg (rl_trs l) with [] => [] | h :: t => merge_loop h t end
               else qg (rl_trs l)) /\
    exists offs, uo_tasks (Z.to_nat (rl_tids l)) 0 0
      (if m then match qg (rl_trs l) with [] => [] | h :: t => merge_loop h t end
               else qg (rl_trs l)) = Ok (offs, rl_trs l', []).
Proof.
  intros Hq Hsi Ho Ht Hf Hm. unfold rl_freeze. rewrite Ho, Hsi. simpl.
  destruct (Hq (rl_trs l)) as [Hp Hss].
  assert (Hf' : Forall (fun x => 0 <= t_task x < rl_tids l) (qg (rl_trs l))) by (eapply Forall_perm; eauto).
  destruct (sortRanges_same qg l) as [S1 [S2 [S3 S4]]].
  pose proof (sortRanges_trs qg l Hq) as S5.
  destruct m; simpl.
  - destruct (Hm eq_refl) as [Hne Hd]. unfold mergeSortedRanges.
    assert (Hr : exists h t, rl_trange (sortRanges qg l) = Some (h :: t) /\ qg (rl_trs l) = h :: t).
    { unfold rl_trs in *. destruct (rl_trange (sortRanges qg l)) as [[|h t]|] eqn:E; simpl in *.
      - rewrite <- S5 in Hp. apply Permutation_sym, Permutation_nil in Hp. congruence.
      - eauto.
      - rewrite <- S5 in Hp. apply Permutation_sym, Permutation_nil in Hp. congruence. }
    destruct Hr as [h [t [R1 R2]]]. rewrite R1, S1, Hd, R2. simpl. rewrite R2 in *.
    match goal with |- context[updateOffsets ?L] =>
      destruct (updateOffsets_ok L) as [l' [U1 [U2 [U3 [U4 [U5 U6]]]]]] end; simpl.
    + congruence.
    + lia.
    + unfold rl_trs; simpl. apply bytask_of_trle. apply merge_loop_sorted; auto.
    + unfold rl_trs; simpl. rewrite S2.
      apply (merge_loop_tasks (fun z => 0 <= z < rl_tids l)). auto.
    + exists l'. split; auto. split; auto. simpl in *. split; [congruence|]. split; [congruence|].
      split; [exact U3|]. rewrite S2 in U6. exact U6.
  - destruct (updateOffsets_ok (sortRanges qg l)) as [l' [U1 [U2 [U3 [U4 [U5 U6]]]]]].
    + congruence.
    + lia.
    + rewrite S5. apply bytask_of_trle; auto.
    + rewrite S5, S2; auto.
    + exists l'. rewrite S5, S2 in *. split; auto. split; auto.
      split; [congruence|]. split; auto.
Qed.
