(* C10: the unweighted block partitioner when the arithmetic is exact (rationals) *)
From Coq Require Import ZArith List Bool Lia Permutation Sorted ZifyBool ZifyNat QArith.
From Verif Require Import Base ListFacts Model_Space Spec_Space Model_RangeList Spec_RangeList
  Model_Partitioner Spec_Partitioner Proof_RangeList5 Proof_Partitioner2 Proof_Block.
Import ListNotations.
Open Scope Z_scope.

Definition qarith : warith Q :=
  mkWarith Q Qplus Qminus Qmult Qdiv (fun a b => Qle_bool b a) inject_Z (-1 # 2)%Q.

Section Exact.
  Variables (D : blockdata Q) (sp : space) (count : Z).
  Hypothesis Hcount : 0 < count.
  Hypothesis Hcycles : 0 < bd_cycles D.
  Hypothesis Hi : bd_idxW D = None.
  Hypothesis Ht : bd_taskW D = None.

  Notation base := (blk_base D sp).
  Notation S := (blk_size D sp).
  Notation N := (count * bd_cycles D).
  Hypothesis Hs : 0 < S.

  (* S * k / N, rounded to the next integer (down if in the middle) *)
  Definition border (k : Z) : Z := base + (2 * k * S + N - 1) / (2 * N).

  Definition NP : positive := Z.to_pos (2 * N).
  Lemma NP_eq : Z.pos NP = 2 * N.
  Proof. unfold NP. rewrite Z2Pos.id; nia. Qed.

  (* the weight after i indexes and n parts *)
  Definition wt (i n : Z) : Q := (2 * N * i - N - 2 * n * S # NP)%Q.

  Lemma lim_eq t : (wa_mul qarith (blk_perPart qarith D sp count) (blk_taskW qarith D count t) == (2 * S # NP))%Q.
  Proof.
    unfold blk_perPart, blk_taskW, blk_totalW. rewrite Hi, Ht. simpl.
    unfold Qdiv.
    assert (H1 : (inject_Z count * inject_Z (bd_cycles D) * (2 * S # NP) == inject_Z S)%Q).
    { unfold Qeq, Qmult, inject_Z. simpl. rewrite NP_eq. ring. }
    assert (N1 : ~ (inject_Z count == 0)%Q) by (unfold Qeq, inject_Z; simpl; lia).
    assert (N2 : ~ (inject_Z (bd_cycles D) == 0)%Q) by (unfold Qeq, inject_Z; simpl; lia).
    rewrite <- H1. field. split; auto.
  Qed.

  Lemma ge_wt w i n t : (w == wt i n)%Q ->
    wa_ge qarith w (wa_mul qarith (blk_perPart qarith D sp count) (blk_taskW qarith D count t)) = (2 * (n + 1) * S <=? 2 * N * i - N).
  Proof.
    intros H. apply eq_true_iff_eq. change (wa_ge qarith) with (fun a b => Qle_bool b a). cbv beta.
    rewrite Qle_bool_iff, lim_eq, H. unfold Qle, wt. simpl. rewrite NP_eq. split; intros; nia.
  Qed.

  Lemma sub_wt w i n t : (w == wt i n)%Q ->
    (wa_sub qarith w (wa_mul qarith (blk_perPart qarith D sp count) (blk_taskW qarith D count t)) == wt i (n + 1))%Q.
  Proof.
    intros H. change (wa_sub qarith) with Qminus. rewrite lim_eq, H. unfold wt, Qminus, Qplus, Qopp, Qeq. simpl.
    rewrite Pos2Z.inj_mul. rewrite NP_eq. ring.
  Qed.

  Lemma add_wt w i n : (w == wt i n)%Q -> (wa_add qarith w (blk_idxW qarith D sp i) == wt (i + 1) n)%Q.
  Proof.
    intros H. change (wa_add qarith) with Qplus. unfold blk_idxW. rewrite Hi. rewrite H.
    unfold wt, Qplus, Qeq, inject_Z. simpl. rewrite Pos.mul_1_r. rewrite NP_eq. ring.
  Qed.

  Definition call_of (n : Z) : list acall :=
    if border n <? border (n + 1) then [ACrange (n mod count) (blk_range D sp (border n) (border (n + 1))) 0] else [].
  Definition calls_upto (n : Z) : list acall := flat_map call_of (zcount n).

  Lemma calls_upto_S n : 0 <= n -> calls_upto (n + 1) = calls_upto n ++ call_of n.
  Proof.
    intros H. unfold calls_upto, zcount. replace (Z.to_nat (n + 1)) with (Datatypes.S (Z.to_nat n)) by lia.
    rewrite seq_S, map_app, flat_map_app. simpl. rewrite app_nil_r. rewrite Z2Nat.id by auto. reflexivity.
  Qed.

  Record EInv (s : bstate Q) (i : Z) : Prop := {
    ei_w : (bs_w s == wt i (cur count s))%Q;
    ei_from : bs_from s = border (cur count s);
    ei_out : bs_out s = calls_upto (cur count s);
    ei_task : 0 <= bs_task s < count;
    ei_cycle : 0 <= bs_cycle s < bd_cycles D }.

  (* the current part ends behind index i - 1 *)
  Definition Above (s : bstate Q) (i : Z) : Prop := 2 * N * i - N < 2 * (cur count s + 1) * S.
  Definition Reached (s : bstate Q) (i : Z) : Prop := cur count s = 0 \/ 2 * cur count s * S <= 2 * N * i - N.

  Lemma border_at i n : 2 * N * i - N < 2 * n * S -> 2 * n * S <= 2 * N * (i + 1) - N -> border n = i + base.
  Proof.
    intros H1 H2. unfold border. replace (_ / _) with i; [lia|].
    apply (Z.div_unique _ _ _ (2 * n * S + N - 1 - 2 * N * i)); nia.
  Qed.

  Lemma last_iff s : 0 <= bs_task s < count -> 0 <= bs_cycle s < bd_cycles D ->
    (blk_last D count s = true <-> cur count s = N - 1).
  Proof. intros. apply last_cur; auto. Qed.

  (* after the while loop with w = weight after i + 1 indexes *)
  Lemma while_exact : forall fuel i s s', EInv s (i + 1) -> Above s i -> Reached s (i + 1) -> 0 <= i < S ->
    blk_while qarith D sp count fuel i s = Ok s' ->
    blk_last D count s' = true /\ bs_from s' = border (N - 1) /\ bs_out s' = calls_upto (N - 1) /\ bs_task s' = (N - 1) mod count
      /\ (cur count s' = 0 \/ 2 * (N - 1) * S <= 2 * N * (i + 1) - N)
    \/ blk_last D count s' = false /\ EInv s' (i + 1) /\ Above s' (i + 1) /\ Reached s' (i + 1).
  Proof.
    induction fuel as [|n IH]; intros i s s' I Ab Re Hi' H; [discriminate|]. cbn [blk_while] in H.
    destruct I as [I1 I2 I3 I4 I5].
    rewrite (ge_wt _ _ _ _ I1) in H.
    assert (L : blk_last D count s = true -> (cur count s = N - 1 /\ bs_task s = (N - 1) mod count)).
    { intros K. apply last_iff in K; auto. split; auto. rewrite <- K. symmetry. apply cur_mod; auto. }
    destruct (2 * (cur count s + 1) * S <=? 2 * N * (i + 1) - N) eqn:E.
    - destruct (blk_last D count s) eqn:El.
      + injection H as <-. left. destruct (L eq_refl) as [L1 L2].
        cbn [bs_from bs_out bs_task]. rewrite L1 in *. conjs; auto.
        destruct Re as [Re|Re]; [left; unfold cur in *; simpl; lia|right; lia].
      + assert (B : border (cur count s + 1) = i + base) by (apply border_at; unfold Above in Ab; lia).
        apply IH in H; auto.
        * constructor; unfold cur; simpl.
          -- replace ((if bs_task s + 1 =? count then bs_cycle s + 1 else bs_cycle s) * count + (if bs_task s + 1 =? count then 0 else bs_task s + 1)) with (cur count s + 1) by (unfold cur; destruct (bs_task s + 1 =? count) eqn:E1; nia).
             apply sub_wt; auto.
          -- replace ((if bs_task s + 1 =? count then bs_cycle s + 1 else bs_cycle s) * count + (if bs_task s + 1 =? count then 0 else bs_task s + 1)) with (cur count s + 1) by (unfold cur; destruct (bs_task s + 1 =? count) eqn:E1; nia).
             auto.
          -- replace ((if bs_task s + 1 =? count then bs_cycle s + 1 else bs_cycle s) * count + (if bs_task s + 1 =? count then 0 else bs_task s + 1)) with (cur count s + 1) by (unfold cur; destruct (bs_task s + 1 =? count) eqn:E1; nia).
             rewrite calls_upto_S by (unfold cur; nia). unfold call_of. rewrite B, I3, <- I2, cur_mod by auto.
             destruct (bs_from s <? i + base); auto. rewrite app_nil_r; auto.
          -- destruct (bs_task s + 1 =? count) eqn:E1; lia.
          -- unfold blk_last in El. destruct (bs_task s + 1 =? count) eqn:E1; lia.
        * unfold Above, cur in *; simpl. destruct (bs_task s + 1 =? count) eqn:E1; nia.
        * right. unfold cur in *; simpl. destruct (bs_task s + 1 =? count) eqn:E1; nia.
    - injection H as <-. destruct (blk_last D count s) eqn:El.
      + left. destruct (L eq_refl) as [L1 L2]. rewrite L1 in *. conjs; auto.
        destruct Re as [Re|Re]; [left; lia|right; rewrite L1 in Re; lia].
      + right. conjs; auto; [constructor; auto|unfold Above; lia].
  Qed.

  Lemma for_exact : forall n i s s', EInv s i -> Above s i -> Reached s i -> 0 <= i -> i + Z.of_nat n = S ->
    blk_last D count s = false \/ i = 0 ->
    blk_for qarith D sp count n i s = Ok s' ->
    blk_last D count s' = true /\ bs_from s' = border (N - 1) /\ bs_out s' = calls_upto (N - 1) /\ bs_task s' = (N - 1) mod count
      /\ (cur count s' = 0 \/ 2 * (N - 1) * S <= 2 * N * S - N)
    \/ blk_last D count s' = false /\ EInv s' S /\ Above s' S.
  Proof.
    induction n as [|n IH]; intros i s s' I Ab Re Hi' Hn Hl H.
    - simpl in H. injection H as <-. right. replace S with i by lia. conjs; auto. destruct Hl; auto. lia.
    - cbn [blk_for] in H. apply obind_ok in H. destruct H as [s1 [H1 H2]].
      apply while_exact in H1; auto.
      + destruct H1 as [[L [H1 [H3 [H4 H5]]]]|[L [H1 [H3 H4]]]]; rewrite L in H2.
        * injection H2 as <-. left. conjs; auto. destruct H5; [auto|right; nia].
        * destruct n as [|n].
          -- simpl in H2. injection H2 as <-. right. replace S with (i + 1) by lia. auto.
          -- eapply IH; eauto; lia.
      + destruct I as [I1 I2 I3 I4 I5]. constructor; auto. unfold cur in *; simpl. apply add_wt; auto.
      + destruct Re as [Re|Re]; [left|right]; unfold cur in *; simpl; nia.
      + lia.
  Qed.

  Lemma border_0 : border 0 = base.
  Proof. unfold border. rewrite Z.div_small; nia. Qed.

  Lemma border_N : border N = base + S.
  Proof. unfold border. f_equal. symmetry. apply (Z.div_unique _ _ _ (N - 1)); nia. Qed.

  Lemma border_last : N <= 2 * S -> border (N - 1) < border (N - 1 + 1).
  Proof.
    intros H. replace (N - 1 + 1) with N by lia. rewrite border_N. unfold border.
    assert ((2 * (N - 1) * S + N - 1) / (2 * N) < S); [|lia]. apply Z.div_lt_upper_bound; nia.
  Qed.

  Lemma block_exact :
    blk_run qarith D sp count = if N <=? 2 * S then Ok (calls_upto N) else Abort.
  Proof.
    unfold blk_run. replace (S >? 0) with true by lia. cbn [cassert].
    destruct (for_fuel qarith D sp count Hcount Hcycles (Z.to_nat S) 0 _ _ (Z.le_refl 0) (init_inv qarith D sp count Hcount Hcycles)) as [s H].
    rewrite H. cbn [obind].
    apply for_exact in H; try lia.
    - destruct H as [[L [H1 [H3 [H4 H5]]]]|[L [H1 H3]]]; rewrite L; cbn [cassert].
      + assert (N <= 2 * S).
        { destruct H5 as [H5|H5]; [|nia]. pose proof (last_cur D count Hcount Hcycles s) as LC.
          assert (N = 1); [|lia].
          apply andb_true_iff in L. destruct L as [L1 L2].
          unfold cur in H5. nia. }
        replace (N <=? 2 * S) with true by lia.
        assert (CU : calls_upto N = calls_upto (N - 1) ++ call_of (N - 1)) by (rewrite <- calls_upto_S by nia; f_equal; lia).
        rewrite CU. f_equal. rewrite H3. f_equal.
        unfold call_of. pose proof (border_last H). replace (border (N - 1) <? border (N - 1 + 1)) with true by lia.
        rewrite H1, H4. replace (N - 1 + 1) with N by lia. rewrite border_N. unfold blk_size. do 4 f_equal. lia.
      + replace (N <=? 2 * S) with false; auto. destruct H1 as [I1 I2 I3 I4 I5]. unfold Above in H3.
        assert (cur count s < N - 1).
        { pose proof (cur_lt D count Hcount s I4 I5). destruct (Z.eq_dec (cur count s) (N - 1)) as [E|E]; [|lia].
          apply last_iff in E; auto. congruence. }
        symmetry. apply Z.leb_gt. nia.
    - constructor; unfold cur; simpl; try lia.
      + unfold wt, Qeq. simpl. rewrite NP_eq. lia.
      + change (0 * count + 0) with 0. rewrite border_0. auto.
      + reflexivity.
    - unfold Above, cur; simpl. nia.
    - left. reflexivity.
  Qed.

  Lemma border_balanced k : 0 <= k -> S / N <= border (k + 1) - border k <= S / N + (if S mod N =? 0 then 0 else 1).
  Proof.
    intros Hk. unfold border. set (a := 2 * k * S + N - 1).
    replace (2 * (k + 1) * S + N - 1) with (a + 2 * S) by (unfold a; lia).
    assert (HN : 0 < N) by nia.
    pose proof (Z.div_mod S N ltac:(lia)) as E1. pose proof (Z.mod_pos_bound S N HN) as E2.
    set (x := S / N) in *. set (r := S mod N) in *.
    replace (a + 2 * S) with (a + 2 * r + x * (2 * N)) by lia. rewrite Z.div_add by lia.
    pose proof (Z.div_mod a (2 * N) ltac:(lia)) as F1. pose proof (Z.mod_pos_bound a (2 * N) ltac:(lia)) as F2.
    set (y := a / (2 * N)) in *.
    assert (G1 : y <= (a + 2 * r) / (2 * N)) by (apply Z.div_le_lower_bound; nia).
    destruct (r =? 0) eqn:Er.
    - replace (a + 2 * r) with a by lia. fold y. lia.
    - assert (G2 : (a + 2 * r) / (2 * N) < y + 2) by (apply Z.div_lt_upper_bound; nia). lia.
  Qed.
End Exact.
