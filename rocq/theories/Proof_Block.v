(* C10: block partitioner, for any arithmetic *)
From Coq Require Import ZArith List Bool Lia Permutation Sorted ZifyBool ZifyNat.
From Verif Require Import Base ListFacts Model_Space Spec_Space Proof_Space Model_RangeList Spec_RangeList
  Proof_RangeList Proof_RangeList2 Proof_RangeList3 Proof_RangeList4 Proof_RangeList5 Proof_Cover
  Model_Partitioner Spec_Partitioner Proof_Partitioner Proof_Partitioner2 Proof_Partitioner4.
Import ListNotations.
Open Scope Z_scope.

(* ---- consecutive intervals ---- *)

Lemma Consec_app : forall l1 a b c l2, Consec a b l1 -> Consec b c l2 -> Consec a c (l1 ++ l2).
Proof.
  induction l1 as [|[f t] l1 IH]; simpl; intros a b c l2 H1 H2.
  - subst; auto.
  - destruct H1 as [-> [H1 H3]]. split; auto. split; auto. eapply IH; eauto.
Qed.

Lemma Consec_le : forall l a b, Consec a b l -> a <= b.
Proof.
  induction l as [|[f t] l IH]; simpl; intros a b H; [lia|]. destruct H as [-> [H1 H2]].
  apply IH in H2. lia.
Qed.

Lemma Consec_in : forall l a b f t, Consec a b l -> In (f, t) l -> a <= f /\ f < t /\ t <= b.
Proof.
  induction l as [|[f' t'] l IH]; simpl; intros a b f t H K; [contradiction|].
  destruct H as [-> [H1 H2]]. destruct K as [K|K].
  - injection K as <- <-. apply Consec_le in H2. lia.
  - specialize (IH _ _ _ _ H2 K). lia.
Qed.

Lemma Consec_cover : forall l a b x, Consec a b l -> a <= x < b -> exists f t, In (f, t) l /\ f <= x < t.
Proof.
  induction l as [|[f t] l IH]; simpl; intros a b x H Hx; [lia|].
  destruct H as [-> [H1 H2]]. destruct (Z_lt_dec x t).
  - exists a, t. split; auto. lia.
  - destruct (IH _ _ x H2 ltac:(lia)) as [f' [t' [K1 K2]]]. exists f', t'. auto.
Qed.

(* an index is in one interval only, and intervals are ordered *)
Lemma Consec_nth : forall l a b n m f t f' t', Consec a b l -> (n < m)%nat ->
  nth_error l n = Some (f, t) -> nth_error l m = Some (f', t') -> t <= f'.
Proof.
  induction l as [|[g u] l IH]; simpl; intros a b n m f t f' t' H Hn K1 K2; [destruct n; discriminate|].
  destruct H as [-> [H1 H2]]. destruct m as [|m]; [lia|]. simpl in K2. destruct n as [|n]; simpl in K1.
  - injection K1 as <- <-. apply nth_error_In in K2. apply (Consec_in _ _ _ _ _ H2) in K2. lia.
  - eapply (IH u b n m); eauto. lia.
Qed.

(* ---- the block partitioner ---- *)

(* parts: number (cycle * count + task), from, to *)
Definition part := (Z * (Z * Z))%type.

Section Blk.
  Context {W : Type} (A : warith W) (D : blockdata W) (sp : space) (count : Z).
  Hypothesis Hcount : 0 < count.
  Hypothesis Hcycles : 0 < bd_cycles D.

  Notation base := (blk_base D sp).
  Definition part_call (p : part) : acall := ACrange (fst p mod count) (blk_range D sp (fst (snd p)) (snd (snd p))) 0.
  Definition cur (s : bstate W) : Z := bs_cycle s * count + bs_task s.

  Record BInv (s : bstate W) (ps : list part) (hi : Z) : Prop := {
    bi_out : bs_out s = map part_call ps;
    bi_cons : Consec base (bs_from s) (map snd ps);
    bi_sorted : StronglySorted Z.lt (map fst ps);
    bi_lt : Forall (fun n => 0 <= n < cur s) (map fst ps);
    bi_task : 0 <= bs_task s < count;
    bi_cycle : 0 <= bs_cycle s < bd_cycles D;
    bi_from : base <= bs_from s <= hi }.

  Lemma cur_mod s : 0 <= bs_task s < count -> cur s mod count = bs_task s.
  Proof. intros H. unfold cur. rewrite Z.add_comm, Z_mod_plus_full. apply Z.mod_small; auto. Qed.

  Lemma cur_lt s : 0 <= bs_task s < count -> 0 <= bs_cycle s < bd_cycles D -> 0 <= cur s < count * bd_cycles D.
  Proof. intros. unfold cur. nia. Qed.

  Lemma last_cur s : 0 <= bs_task s < count -> 0 <= bs_cycle s < bd_cycles D ->
    (blk_last D count s = true <-> cur s = count * bd_cycles D - 1).
  Proof. intros. unfold blk_last, cur. split; [intros; nia|]. intros K. assert (bs_cycle s + 1 = bd_cycles D) by nia. assert (bs_task s + 1 = count) by nia. lia. Qed.

  Lemma sorted_snoc l x : StronglySorted Z.lt l -> Forall (fun n => n < x) l -> StronglySorted Z.lt (l ++ [x]).
  Proof.
    induction 1 as [|a l S IH F]; intros G; simpl; [repeat constructor|].
    inversion G; subst. constructor; auto. apply Forall_app. split; auto.
  Qed.

  (* one step to the next part *)
  Lemma step_inv s ps i w : BInv s ps (i + base) -> blk_last D count s = false -> 0 <= i ->
    let to := i + base in
    let s' := mkBstate w (if bs_task s + 1 =? count then 0 else bs_task s + 1)
                (if bs_task s + 1 =? count then bs_cycle s + 1 else bs_cycle s) to
                (if bs_from s <? to then bs_out s ++ [ACrange (bs_task s) (blk_range D sp (bs_from s) to) 0] else bs_out s) in
    cur s' = cur s + 1 /\
    exists ps', BInv s' ps' (i + base).
  Proof.
    intros I Hl Hi to s'. destruct I as [I1 I2 I3 I4 I5 I6 I7].
    assert (C : cur s' = cur s + 1).
    { unfold cur, s'. simpl. destruct (bs_task s + 1 =? count) eqn:E; nia. }
    split; auto.
    assert (T : 0 <= bs_task s' < count) by (unfold s'; simpl; destruct (bs_task s + 1 =? count) eqn:E; lia).
    assert (Cy : 0 <= bs_cycle s' < bd_cycles D).
    { unfold s'; simpl. unfold blk_last in Hl. destruct (bs_task s + 1 =? count) eqn:E; lia. }
    destruct (bs_from s <? to) eqn:E.
    - exists (ps ++ [(cur s, (bs_from s, to))]). constructor; auto.
      + unfold s'; simpl. rewrite map_app, I1. f_equal. unfold part_call. cbn [map fst snd]. rewrite cur_mod by auto. reflexivity.
      + unfold s'; simpl. rewrite map_app. eapply Consec_app; [exact I2|]. simpl. lia.
      + rewrite map_app. simpl. apply sorted_snoc; auto. eapply Forall_impl; [|exact I4]. simpl. intros; lia.
      + rewrite map_app. apply Forall_app. split.
        * eapply Forall_impl; [|exact I4]. simpl. intros; lia.
        * simpl. repeat constructor; [|lia]. pose proof (cur_lt s I5 I6). lia.
      + unfold s'; simpl. unfold to in *. lia.
    - exists ps. constructor; auto.
      + unfold s'; simpl. replace to with (bs_from s) by (unfold to in *; lia). auto.
      + eapply Forall_impl; [|exact I4]. simpl. intros; lia.
      + unfold s'; simpl. unfold to in *. lia.
  Qed.

  Lemma BInv_w s ps hi w : BInv s ps hi -> BInv (mkBstate w (bs_task s) (bs_cycle s) (bs_from s) (bs_out s)) ps hi.
  Proof. intros [I1 I2 I3 I4 I5 I6 I7]. constructor; auto. Qed.

  Lemma while_inv : forall fuel i s ps s', 0 <= i -> BInv s ps (i + base) -> blk_while A D sp count fuel i s = Ok s' ->
    exists ps', BInv s' ps' (i + base).
  Proof.
    induction fuel as [|n IH]; intros i s ps s' Hi I H; [discriminate|]. cbn [blk_while] in H.
    destruct (wa_ge A (bs_w s) _); [|injection H as <-; eauto].
    destruct (blk_last D count s) eqn:El.
    - injection H as <-. exists ps. apply BInv_w; auto.
    - match type of H with blk_while _ _ _ _ _ _ (mkBstate ?w _ _ _ _) = _ =>
        destruct (step_inv s ps i w I El Hi) as [_ [ps1 I1]] end.
      eapply IH; eauto.
  Qed.

  Lemma while_fuel : forall fuel i s ps, 0 <= i -> BInv s ps (i + base) ->
    count * bd_cycles D - cur s < Z.of_nat fuel -> exists s', blk_while A D sp count fuel i s = Ok s'.
  Proof.
    induction fuel as [|n IH]; intros i s ps Hi I Hf.
    - exfalso. destruct I. pose proof (cur_lt s bi_task0 bi_cycle0). lia.
    - cbn [blk_while]. destruct (wa_ge A (bs_w s) _); [|eauto].
      destruct (blk_last D count s) eqn:El; [eauto|].
      match goal with |- exists s', blk_while _ _ _ _ _ _ (mkBstate ?w _ _ _ _) = _ =>
        destruct (step_inv s ps i w I El Hi) as [C [ps1 I1]] end.
      eapply IH; eauto. rewrite C. lia.
  Qed.

  Lemma BInv_mono s ps a b : BInv s ps a -> a <= b -> BInv s ps b.
  Proof. intros [I1 I2 I3 I4 I5 I6 I7] H. constructor; auto. lia. Qed.

  Lemma for_inv : forall n i s ps s', 0 <= i -> BInv s ps (i + base) -> blk_for A D sp count n i s = Ok s' ->
    exists ps', BInv s' ps' (Z.max (i + base) (i + Z.of_nat n - 1 + base)).
  Proof.
    induction n as [|n IH]; intros i s ps s' Hi I H.
    - simpl in H. injection H as <-. exists ps. eapply BInv_mono; eauto. lia.
    - cbn [blk_for] in H. apply obind_ok in H. destruct H as [s1 [H1 H2]].
      eapply while_inv in H1; [|exact Hi|apply BInv_w; exact I]. destruct H1 as [ps1 I1].
      destruct (blk_last D count s1).
      + injection H2 as <-. exists ps1. eapply BInv_mono; eauto. lia.
      + assert (I2 : BInv s1 ps1 (i + 1 + base)) by (eapply BInv_mono; eauto; lia).
        destruct n as [|n].
        * simpl in H2. injection H2 as <-. exists ps1. eapply BInv_mono; [exact I1|]. lia.
        * destruct (IH (i + 1) s1 ps1 s' ltac:(lia) I2 H2) as [ps' I3]. exists ps'. eapply BInv_mono; eauto. lia.
  Qed.

  Lemma for_fuel : forall n i s ps, 0 <= i -> BInv s ps (i + base) -> exists s', blk_for A D sp count n i s = Ok s'.
  Proof.
    induction n as [|n IH]; intros i s ps Hi I; cbn [blk_for]; [eauto|].
    set (s0 := mkBstate _ _ _ _ _).
    assert (I0 : BInv s0 ps (i + base)) by (apply BInv_w; auto).
    destruct (while_fuel (S (Z.to_nat (count * bd_cycles D))) i s0 ps Hi I0) as [s1 H1].
    { pose proof (cur_lt s0 (bi_task _ _ _ I0) (bi_cycle _ _ _ I0)). lia. }
    rewrite H1. simpl. destruct (blk_last D count s1); [eauto|].
    eapply while_inv in H1; [|exact Hi|exact I0]. destruct H1 as [ps1 I1].
    apply (IH (i + 1) s1 ps1); [lia|]. eapply BInv_mono; eauto. lia.
  Qed.

  Lemma init_inv : BInv (mkBstate (wa_mhalf A) 0 0 base []) [] (0 + base).
  Proof. constructor; simpl; auto; try lia; constructor. Qed.

  Lemma blk_run_ok cs : blk_run A D sp count = Ok cs ->
    0 < blk_size D sp /\
    exists ps : list part, cs = map part_call ps /\
      Consec base (idx_get (b_to (sp_box sp)) (bd_pdim D)) (map snd ps) /\
      StronglySorted Z.lt (map fst ps) /\ Forall (fun n => 0 <= n < count * bd_cycles D) (map fst ps).
  Proof.
    unfold blk_run. intros H. apply cassert_ok in H. destruct H as [Hs H].
    apply obind_ok in H. destruct H as [s [H1 H]]. apply cassert_ok in H. destruct H as [Hl H].
    injection H as <-. split; [lia|].
    destruct (for_inv _ 0 _ _ _ (Z.le_refl 0) init_inv H1) as [ps [I1 I2 I3 I4 I5 I6 I7]].
    pose proof (cur_lt s I5 I6) as CL.
    exists (ps ++ [(cur s, (bs_from s, idx_get (b_to (sp_box sp)) (bd_pdim D)))]). conjs.
    - rewrite map_app, I1. f_equal. unfold part_call. cbn [map fst snd]. rewrite cur_mod by auto. reflexivity.
    - rewrite map_app. eapply Consec_app; [exact I2|]. simpl. unfold blk_size in *. lia.
    - rewrite map_app. simpl. apply sorted_snoc; auto. eapply Forall_impl; [|exact I4]. simpl. intros; lia.
    - rewrite map_app. apply Forall_app. split.
      + eapply Forall_impl; [|exact I4]. simpl. intros; lia.
      + simpl. repeat constructor; lia.
  Qed.

  Lemma blk_run_defined : defined (blk_run A D sp count).
  Proof.
    unfold blk_run. apply defined_cassert. intros Hs.
    destruct (for_fuel (Z.to_nat (blk_size D sp)) 0 _ _ (Z.le_refl 0) init_inv) as [s H]. rewrite H. simpl.
    apply defined_cassert. intros _. simpl; auto.
  Qed.
End Blk.

(* block calls: ownership *)
Lemma part_gives {W} (D : blockdata W) sp count p t i : valid_dims (sp_dims sp) -> (bd_pdim D < sp_dims sp)%nat ->
  (Gives (sp_dims sp) (part_call D sp count p) t i <->
   t = fst p mod count /\ fst (snd p) <= idx_get i (bd_pdim D) < snd (snd p) /\
   forall k, (k < sp_dims sp)%nat -> k <> bd_pdim D -> idx_get (b_from (sp_box sp)) k <= idx_get i k < idx_get (b_to (sp_box sp)) k).
Proof.
  intros Hd Hp. unfold part_call, Gives, blk_range. simpl. rewrite InBox_set by auto. intuition.
Qed.

Lemma sorted_lt_nth l : StronglySorted Z.lt l -> forall n m x y, nth_error l n = Some x -> nth_error l m = Some y -> x < y -> (n < m)%nat.
Proof.
  intros S n m x y Hn Hm L. destruct (Nat.lt_trichotomy n m) as [K|[K|K]]; auto.
  - subst. rewrite Hn in Hm. injection Hm as ->. lia.
  - pose proof (StronglySorted_nth _ _ S m n y x K Hm Hn). lia.
Qed.

(* the parts given to a process: at most one per cycle *)
Lemma count_parts count cycles t : 0 < count -> 0 <= t < count -> forall l, StronglySorted Z.lt l ->
  Forall (fun n => 0 <= n < count * cycles) l ->
  Z.of_nat (length (filter (fun n => (n mod count =? t)%Z) l)) <= Z.max 0 cycles.
Proof.
  intros Hc Ht l S F.
  set (m := filter _ l).
  assert (Nd : NoDup (map (fun n => n / count) m)).
  { assert (G : forall l, StronglySorted Z.lt l -> NoDup (map (fun n => n / count) (filter (fun n => n mod count =? t) l))).
    { clear. induction 1 as [|a l S IH F]; simpl; [constructor|].
      destruct (a mod count =? t) eqn:E; simpl; auto. constructor; auto. intros K.
      apply in_map_iff in K. destruct K as [b [K1 K2]]. apply filter_In in K2. destruct K2 as [K2 K3].
      rewrite Forall_forall in F. specialize (F b K2).
      destruct (Z.eq_dec count 0) as [->|N]; [rewrite !Zmod_0_r in *; lia|].
      pose proof (Z.div_mod a count N). pose proof (Z.div_mod b count N). nia. }
    apply G; auto. }
  assert (Inc : incl (map (fun n => n / count) m) (zcount cycles)).
  { intros x Hx. apply in_map_iff in Hx. destruct Hx as [n [<- Hn]]. unfold m in Hn. apply filter_In in Hn. destruct Hn as [Hn _].
    rewrite Forall_forall in F. specialize (F n Hn). apply zcount_In. split; [apply Z.div_pos; lia|].
    apply Z.div_lt_upper_bound; lia. }
  pose proof (NoDup_incl_length Nd Inc) as L. rewrite map_length in L. unfold zcount in L. rewrite map_length, seq_length in L. lia.
Qed.

Lemma block_owns {W} (A : warith W) (D : blockdata W) q p l :
  good_sorts q -> valid_dims (sp_dims (pp_space p)) -> 0 < g_size (pp_group p) ->
  0 < bd_cycles D -> (bd_pdim D < sp_dims (pp_space p))%nat ->
  run_partitioner q (block_partitioner A D) p None = Ok l ->
  (forall i, InBox (sp_dims (pp_space p)) i (sp_box (pp_space p)) ->
     exists t, 0 <= t < g_size (pp_group p) /\ Owns l t i) /\
  Unique l /\
  (forall t, 0 <= t < g_size (pp_group p) -> exists n, rl_tidrangecount l t = Ok n /\ 0 <= n <= bd_cycles D) /\
  (bd_cycles D = 1 -> forall t u i j, t < u -> Owns l t i -> Owns l u j ->
     idx_get i (bd_pdim D) < idx_get j (bd_pdim D)) /\
  (exists h, pr_run (block_partitioner A D) p = Ok h /\
    exists parts : list (Z * (Z * Z)),
      h = map (fun x => ACrange (fst x mod g_size (pp_group p))
             (mkRange (Some (pp_space p))
               (mkBox (idx_set (b_from (sp_box (pp_space p))) (bd_pdim D) (fst (snd x)))
                      (idx_set (b_to (sp_box (pp_space p))) (bd_pdim D) (snd (snd x))))) 0) parts /\
      Consec (idx_get (b_from (sp_box (pp_space p))) (bd_pdim D))
             (idx_get (b_to (sp_box (pp_space p))) (bd_pdim D)) (map snd parts) /\
      StronglySorted Z.lt (map fst parts) /\
      Forall (fun n => 0 <= n < g_size (pp_group p) * bd_cycles D) (map fst parts)).
Proof.
  intros Hq Hd Hg Hc Hp H.
  destruct (run_partitioner_ok _ _ _ _ _ Hq Hd ltac:(lia) H) as [cs [l0 [R1 [R2 [R3 [FL [EL [ET [O _]]]]]]]]].
  simpl in R1. unfold runBlock in R1.
  destruct (blk_run_ok A D (pp_space p) (g_size (pp_group p)) Hg Hc _ R1) as [Hs [ps [E [Cs [Ss Fs]]]]].
  set (count := g_size (pp_group p)) in *. set (sp := pp_space p) in *.
  assert (Og : forall t i, Owns l t i <-> exists n x, nth_error ps n = Some x /\ t = fst x mod count /\
     fst (snd x) <= idx_get i (bd_pdim D) < snd (snd x) /\
     forall k, (k < sp_dims sp)%nat -> k <> bd_pdim D -> idx_get (b_from (sp_box sp)) k <= idx_get i k < idx_get (b_to (sp_box sp)) k).
  { intros t i. rewrite O. unfold Given. simpl. rewrite E. split.
    - intros [c [K1 K2]]. apply in_map_iff in K1. destruct K1 as [x [<- K1]]. apply part_gives in K2; auto.
      apply In_nth_error in K1. destruct K1 as [n K1]. exists n, x. auto.
    - intros [n [x [K1 K2]]]. exists (part_call D sp count x). split; [apply in_map; eapply nth_error_In; eauto|].
      apply part_gives; auto. }
  assert (Same : forall n m x y v, nth_error ps n = Some x -> nth_error ps m = Some y ->
     fst (snd x) <= v < snd (snd x) -> fst (snd y) <= v < snd (snd y) -> n = m).
  { intros n m [a [f t]] [b [f' t']] v K1 K2 V1 V2. simpl in *.
    apply (map_nth_error snd) in K1, K2. simpl in *.
    destruct (Nat.lt_trichotomy n m) as [L|[L|L]]; auto; exfalso.
    - pose proof (Consec_nth _ _ _ _ _ _ _ _ _ Cs L K1 K2). lia.
    - pose proof (Consec_nth _ _ _ _ _ _ _ _ _ Cs L K2 K1). lia. }
  split; [|split; [|split; [|split]]].
  - intros i Hi. rewrite InBox_get in Hi by auto.
    destruct (Consec_cover _ _ _ (idx_get i (bd_pdim D)) Cs (Hi _ Hp)) as [f [t [K1 K2]]].
    apply in_map_iff in K1. destruct K1 as [x [Ex K1]]. apply In_nth_error in K1. destruct K1 as [n K1].
    exists (fst x mod count). split; [apply Z.mod_pos_bound; auto|]. apply Og. exists n, x. rewrite Ex. simpl. conjs; auto; lia.
  - intros t u i K1 K2. apply Og in K1, K2. destruct K1 as [n [x [N1 [T1 [V1 _]]]]], K2 as [m [y [N2 [T2 [V2 _]]]]].
    assert (n = m) by (eapply Same; eauto). subst m. congruence.
  - intros t Ht. destruct (run_calls_kind _ _ _ _ R2) as [[F' R]|[N [F' R]]].
    + simpl in R. destruct Hq as [Q1 _].
      destruct (enumeration_gen _ _ _ _ _ _ _ t Q1 R R3 Ht) as [xs [E1 [E2 [E3 _]]]].
      exists (Z.of_nat (length xs)). split; auto. split; [lia|].
      apply Permutation_length in E3. rewrite !map_length in E3. rewrite E3.
      pose proof (count_parts count (bd_cycles D) t Hg Ht _ Ss Fs) as K.
      assert (Eq : length (filter (fun a => a_task a =? t) (map to_app cs)) = length (filter (fun n => n mod count =? t) (map fst ps))).
      { rewrite E. clear. induction ps as [|x ps IH]; simpl; auto.
        destruct (fst x mod count =? t); simpl; congruence. }
      rewrite Eq. lia.
    + exfalso. destruct ps as [|x ps]; [simpl in *; subst cs; congruence|]. subst cs. simpl in F'. inversion F'. discriminate.
  - intros Hc1 t u i j L K1 K2. apply Og in K1, K2.
    destruct K1 as [n [x [N1 [T1 [V1 _]]]]], K2 as [m [y [N2 [T2 [V2 _]]]]].
    rewrite Forall_forall in Fs.
    assert (Fx : 0 <= fst x < count) by (pose proof (Fs (fst x) (in_map fst _ _ (nth_error_In _ _ N1))); lia).
    assert (Fy : 0 <= fst y < count) by (pose proof (Fs (fst y) (in_map fst _ _ (nth_error_In _ _ N2))); lia).
    rewrite Z.mod_small in T1, T2 by auto. subst t u.
    pose proof (sorted_lt_nth _ Ss n m _ _ (map_nth_error fst _ _ N1) (map_nth_error fst _ _ N2) L) as Lnm.
    destruct x as [a [f t]], y as [b [f' t']]. simpl in *.
    pose proof (Consec_nth _ _ _ _ _ _ _ _ _ Cs Lnm (map_nth_error snd _ _ N1) (map_nth_error snd _ _ N2)). lia.
  - exists cs. split; auto. exists ps. conjs; auto.
Qed.

Lemma block_defined {W} (A : warith W) (D : blockdata W) p : 0 < g_size (pp_group p) -> 0 < bd_cycles D ->
  defined (pr_run (block_partitioner A D) p).
Proof. intros. apply blk_run_defined; auto. Qed.

(* in 1d, once the calls are made the partitioning is accepted *)
Lemma block_accepted {W} (A : warith W) (D : blockdata W) q p h :
  good_sorts q -> sp_dims (pp_space p) = 1%nat -> bd_pdim D = 0%nat -> 0 < g_size (pp_group p) -> 0 < bd_cycles D ->
  (forall o, pp_other p = Some o -> op_group o = pp_group p) ->
  pr_run (block_partitioner A D) p = Ok h ->
  exists l, run_partitioner q (block_partitioner A D) p None = Ok l.
Proof.
  intros Hq Hd Hp Hg Hc Ho R1. assert (Hv : valid_dims (sp_dims (pp_space p))) by (rewrite Hd; left; auto).
  pose proof R1 as R1'. simpl in R1'. unfold runBlock in R1'.
  destruct (blk_run_ok A D (pp_space p) (g_size (pp_group p)) Hg Hc _ R1') as [Hs [ps [E [Cs [Ss Fs]]]]].
  unfold blk_base, blk_size in *. rewrite Hp in *. simpl in *. 
  apply (accept_1d q (block_partitioner A D) p h); auto; [lia| | |].
  - apply nonempty1. unfold blk_base in Hs. rewrite Hp in Hs. simpl in Hs. lia.
  - intros c K. rewrite E in K. apply in_map_iff in K. destruct K as [x [<- K]].
    exists (fst x mod g_size (pp_group p)). eexists _, _. split; [reflexivity|].
    split; [apply Z.mod_pos_bound; auto|]. split; [reflexivity|].
    pose proof (Consec_in _ _ _ (fst (snd x)) (snd (snd x)) Cs) as Ci.
    rewrite <- surjective_pairing in Ci. specialize (Ci (in_map snd _ _ K)).
    unfold blk_range. rewrite Hp. simpl. split; [apply nonempty1; simpl; lia|].
    intros i. unfold InBox; simpl. lia.
  - intros i Hi. unfold InBox in Hi. destruct (Consec_cover _ _ _ (i0 i) Cs ltac:(lia)) as [f [t [K1 K2]]].
    apply in_map_iff in K1. destruct K1 as [x [Ex K1]].
    exists (fst x mod g_size (pp_group p)). exists (part_call D (pp_space p) (g_size (pp_group p)) x).
    rewrite E. split; [apply in_map; auto|]. rewrite <- Hd. apply part_gives; auto; [lia|].
    rewrite Hp, Ex, Hd. simpl. split; auto. split; auto. intros k Hk Nk. lia.
Qed.
