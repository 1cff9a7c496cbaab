(* All processes of a switch of a 1d container together. *)
From Coq Require Import ZArith List Bool Lia ZifyBool ZifyNat Sorted Permutation.
From Verif Require Import Base ListFacts Model_Space Model_Mem Model_RangeList Model_Layout Model_Partitioner Model_Group Model_Transition Model_Data Model_Action Model_ActionTrans Model_ActionExec Model_ActionExec2 Model_Net Model_Switch.
From Verif Require Import Spec_Space Spec_RangeList Spec_Partitioner Spec_Layout Spec_Data Spec_Transition Spec_Action Spec_ActionTrans Spec_Async Spec_Reduce Spec_Net Spec_Switch.
From Verif Require Import Proof_RangeList Proof_Partitioner2 Proof_RangeList4 Proof_RangeList5 Proof_Trans1 Proof_Trans2 Proof_Trans3 Proof_Trans4 Proof_Data Proof_Data3 Proof_Data4 Proof_Data5 Proof_Type Proof_Comb3 Proof_Group Proof_Net Proof_Reduce1 Proof_Reduce2 Proof_Reduce3 Proof_Reduce4 Proof_Switch1 Proof_Switch2 Proof_Switch3 Proof_Switch4 Proof_Switch5 Proof_Switch6 Proof_Switch7 Proof_Switch8.
Import ListNotations.
Open Scope Z_scope.

Lemma element_rdb m p es c j : 0 < es -> 0 <= j < c -> element es j (rdb m p (c * es)) = rdb m (p + j * es) es.
Proof.
  intros Hes Hj. unfold element. apply nth_ext with (d := 0) (d' := 0).
  - rewrite firstn_length, skipn_length. assert (L1 := rdb_length m p (c * es) ltac:(nia)). assert (L2 := rdb_length m (p + j * es) es ltac:(lia)). nia.
  - intros i Hi. rewrite firstn_length, skipn_length in Hi. assert (L1 := rdb_length m p (c * es) ltac:(nia)).
    rewrite nth_firstn' by lia. rewrite nth_skipn'.
    replace (Z.to_nat (j * es) + i)%nat with (Z.to_nat (j * es + Z.of_nat i)) by nia. rewrite rdb_nth by nia.
    replace i with (Z.to_nat (Z.of_nat i)) at 2 by lia. rewrite rdb_nth by lia. f_equal. lia.
Qed.
Lemma element_reduce T es r c j vs : 0 < es -> 0 <= j < c -> Elementwise T es r -> Forall (fun v => Z.of_nat (length v) = c * es) vs ->
  element es j (reduce_all T r c vs) = reduce_all T r 1 (map (element es j) vs).
Proof.
  intros Hes Hj [E1 E2 E3] HF. unfold reduce_all. destruct vs as [|v vs]; [apply E3; auto|]. cbn [map].
  inversion HF as [|? ? Hv HF']. subst. clear HF. revert v Hv. induction HF' as [|w vs Hw HF IH]; intros v Hv; auto. cbn [fold_left map].
  rewrite <- (E2 c) by auto. apply IH. apply (E1 c); auto. lia.
Qed.

Lemma site_holds sp es l me ml z k m mm i : sp_dims sp = 1%nat -> FrozenList l -> rl_space l = sp -> 0 <= me < rl_tids l -> (forall z, cov (rl_trs l) me z <= 1) ->
  Covers l me ml -> Site l me ml z k m -> i0 i = z -> Holds es l me ml mm i (rdb mm (org es m + z * es) es).
Proof.
  intros Hd Fz Hs Hm H1 HC S Hi. destruct (site_req sp Hd l me Fz Hs Hm H1 ml HC z k m S) as [R1 R2]. pose proof S as (x & X1 & X2 & X3 & X4 & X5).
  destruct (trs_tid sp Hd l me Fz Hm H1 x X1 X2) as (n & Hn). exists n, x, m. split; auto. split; [|split; [congruence|split; [lia|]]].
  - unfold InBox. unfold tf, tt in X3. rewrite Hi. repeat split; try lia; intros; lia.
  - f_equal. unfold org. rewrite Hi. ring.
Qed.

Section All.
  Variable d : dcont.
  Let sp := dc_space d.
  Let es := dc_es d.
  Hypothesis Hes : 0 < es.
  Hypothesis Hm0 : dc_map0 d = None.
  Variable N : Z.
  Variables fl tl : rlist.
  Hypothesis G : Good1d sp N fl tl.
  Variable red : redop.
  Variable qb : list border -> list border.
  Hypothesis Hq : c_qsort rb_cmp qb.
  Variable T : dtype.
  Hypothesis HT : red <> RO_None -> Elementwise T es red.
  Hypothesis HR : Reducible es fl tl.
  Variable x : Z -> proc.
  Hypothesis HX : forall p, 0 <= p < N -> Ready d qb N fl tl red p (x p).
  Let sl := qb (allb (rl_trs fl) (rl_trs tl)).
  Let D := segs sl.
  Let ins := pins (rl_trs fl) N.
  Let outs := pouts (rl_trs tl) N.
  Let isred := pred (rl_trs fl) N.
  Let n (k : Z * Z) := pcnt k * es.

  Let HP : Permutation (allb (rl_trs fl) (rl_trs tl)) sl := proj1 (g_sorted sp N fl tl G qb Hq).
  Let HS : StronglySorted ble sl := proj2 (g_sorted sp N fl tl G qb Hq).

  Lemma ops_ok p : 0 <= p < N -> OpsInv (rl_trs fl) (rl_trs tl) N p red D (pc_ops (x p)) /\ forall i, Handled p red fl tl i.
  Proof.
    intros Hp. destruct (HX p Hp) as [_ _ _ _ _ Hs (tr & E1 & E2)].
    destruct (trans_main qb sp N p fl tl (pc_from (x p)) (pc_to (x p)) red G Hs Hq) as [(o & E & Hh & Ho)|[E _]]; unfold sp in E; rewrite E1 in E; [|discriminate].
    injection E as ->. cbn [tr_ops] in E2. subst o. auto.
  Qed.
  Lemma own_range (inp : bool) k q : In q (owners N (if inp then rl_trs fl else rl_trs tl) k) -> 0 <= q < N.
  Proof. intros H. unfold owners in H. apply filter_In in H. destruct H as [H _]. apply zcount_In in H. auto. Qed.
  Lemma own_nodup l k : NoDup (owners N l k).
  Proof. unfold owners. apply NoDup_filter. apply zcount_NoDup. Qed.
  Lemma own_f (k : Z * Z) i t : In k D -> fst k <= i0 i < snd k -> (In t (ins k) <-> Owns fl t i).
  Proof.
    intros Hk Hi. unfold ins, pins. rewrite (sg_own N fl tl sl HP HS k (i0 i) Hk Hi true). symmetry. apply (g_own_owns sp N fl tl G true t i).
  Qed.
  Lemma own_t (k : Z * Z) i t : In k D -> fst k <= i0 i < snd k -> (In t (outs k) <-> Owns tl t i).
  Proof.
    intros Hk Hi. unfold outs, pouts. rewrite (sg_own N fl tl sl HP HS k (i0 i) Hk Hi false). symmetry. apply (g_own_owns sp N fl tl G false t i).
  Qed.
  Lemma isred_len k : isred k = true -> length (ins k) <> 1%nat.
  Proof. unfold isred, pred. fold (ins k). destruct (ins k) as [|a [|b l]]; discriminate. Qed.
  Lemma lim k : In k D -> isred k = true -> (length (ins k) <= 32)%nat /\ n k * Z.of_nat (length (ins k)) < 2 ^ 32 /\ (outs k = [] -> two (ins k) = true).
  Proof.
    intros Hk Hr. pose proof (seg_lt sl HS k Hk) as Hlt. destruct (HR (fst k) (snd k) (ins k)) as (H1 & H2 & H3); auto.
    - apply own_nodup.
    - apply isred_len; auto.
    - intros i t Hi. apply own_f; auto.
    - split; auto. split; auto. intros Ho. assert (length (ins k) <= 8)%nat; [|unfold two; nia].
      apply H3. intros i t Hi Hw. apply (own_t k i t Hk Hi) in Hw. rewrite Ho in Hw. destruct Hw.
  Qed.
  Lemma red_op k : In k D -> isred k = true -> (ins k <> [] \/ outs k <> []) -> red <> RO_None.
  Proof.
    intros Hk Hr Hne. pose proof (seg_lt sl HS k Hk) as Hlt. set (i := mkIdx (fst k) 0 0). assert (Hi : fst k <= i0 i < snd k) by (unfold i; cbn; lia).
    assert (HQ : exists q, In q (ins k) \/ In q (outs k)) by (destruct (ins k) as [|a r]; [destruct (outs k) as [|b r]; [destruct Hne; congruence|exists b; right; left; auto]|exists a; left; left; auto]).
    destruct HQ as (q & HQ). assert (Hqr : 0 <= q < N) by (destruct HQ as [H|H]; [apply (own_range true (fst k))|apply (own_range false (fst k))]; exact H).
    destruct (ops_ok q Hqr) as [_ Hh]. destruct (Hh i) as [_ H2].
    - destruct HQ as [H|H]; [left; apply (own_f k i q Hk Hi)|right; apply (own_t k i q Hk Hi)]; auto.
    - apply H2. intros s Hs. apply (isred_len k Hr).
      assert (Hs' : forall t, In t (ins k) <-> t = s) by (intros t; rewrite (own_f k i t Hk Hi); apply Hs).
      assert (NDi : NoDup (ins k)) by apply own_nodup. clear - Hs' NDi. destruct (ins k) as [|a [|b l]]; auto.
      + exfalso. apply (Hs' s). auto.
      + exfalso. assert (a = s) by (apply Hs'; left; auto). assert (b = s) by (apply Hs'; right; left; auto). subst. inversion NDi as [|? ? C _]. apply C. left; auto.
  Qed.

  Section Run.
    Variables t F' : Z -> mlist.
    Hypothesis HA : forall p, 0 <= p < N -> Alloc d tl p (pc_old (x p)) (pc_next (x p)) (pc_addr (x p)) (t p) (F' p).
    Let cx p := trans_ctx d N p (pc_ops (x p)) (Some (F' p)) (t p).
    Variable acts : Z -> list action.
    Hypothesis Hacts : forall p, 0 <= p < N -> exists s, plan (cx p) (pc_ops (x p)) = Ok s /\ as_acts s = acts p.
    Variable place : Z -> Z -> Z.
    Variable oth : Z -> apar -> instr.
    Hypothesis Hbuf : forall p, 0 <= p < N -> BuffersFor (acts p) (place p) (blocks (pc_old (x p)) ++ blocks (t p)).
    Let m p := pc_mem (x p).
    Let fr (k : Z * Z) p := fA (rl_trs fl) N p (fromS d fl p (pc_old (x p))) k.
    Let to (k : Z * Z) p := tA (rl_trs tl) N p (toS d tl p (t p)) k.

    Lemma fr_in k p : In p (ins k) -> fr k p = fromS d fl p (pc_old (x p)) k.
    Proof. intros H. unfold fr, fA. apply memb_in in H. fold (ins k). rewrite H. auto. Qed.
    Lemma to_in k p : In p (outs k) -> to k p = toS d tl p (t p) k.
    Proof. intros H. unfold to, tA. apply memb_in in H. fold (outs k). rewrite H. auto. Qed.

    Lemma run_plan p : 0 <= p < N -> exists idf u,
      program (den2 (cx p) (place p) T (oth p)) (acts p) = repeat skip u ++ prog (rl_trs fl) (rl_trs tl) N p red D (cx p) (place p) T (fromS d fl p (pc_old (x p))) (toS d tl p (t p)) idf /\
      Reserved (rl_trs fl) (rl_trs tl) N D (cx p) (acts p) idf.
    Proof.
      intros Hp. destruct (ops_ok p Hp) as [HO _]. destruct (HX p Hp) as [X1 X2 X3 X4 X5 X6 X7].
      destruct (the_plan d Hes N fl tl G red sl HP HS p Hp (pc_old (x p)) (pc_next (x p)) (pc_addr (x p)) (pc_ops (x p)) X1 X2 HO (t p) (F' p) (HA p Hp) (place p) T (oth p)) as (s & idf & u & E1 & E2 & E3).
      - intros k Hk Hr. destruct (lim k Hk Hr) as (L1 & L2 & _). auto.
      - intros k Hk Hr. apply (lim k Hk Hr).
      - destruct (Hacts p Hp) as (s' & E4 & E5). unfold cx in E4. rewrite E1 in E4. injection E4 as <-. rewrite <- E5. exists idf, u. auto.
    Qed.

    Section Ids.
      Variable idf : Z -> Z * Z -> Z.
      Hypothesis Hidf : forall p, 0 <= p < N -> Reserved (rl_trs fl) (rl_trs tl) N D (cx p) (acts p) (idf p).
      Let base (k : Z * Z) p := place p (idf p k).
      Let tmp k p := region (base k p) (n k * Z.of_nat (length (others p (ins k)))).
      Let doesk k p := isred k && does (ins k) (outs k) p.

      Lemma tmp_res k p : 0 <= p < N -> In k D -> doesk k p = true -> n k * Z.of_nat (length (others p (ins k))) > 0 ->
        Reserves (acts p) (idf p k) (n k * Z.of_nat (length (others p (ins k)))).
      Proof.
        intros Hp Hk Hd Hz. unfold doesk in Hd. apply andb_prop in Hd. destruct Hd as [D1 D2]. destruct (Hidf p Hp) as [R1 R2].
        assert (ER : rsize (rl_trs fl) (rl_trs tl) N (cx p) k = n k * Z.of_nat (length (others p (ins k)))).
        { unfold rsize, resize. change (cx_me (cx p)) with p. fold (ins k) (outs k). rewrite D2. reflexivity. }
        exists 0, 0. rewrite <- ER. apply R1; auto. lia.
      Qed.
      Lemma tmp_away k p b : 0 <= p < N -> In k D -> doesk k p = true -> In b (blocks (pc_old (x p)) ++ blocks (t p)) -> apart (tmp k p) (region (fst b) (snd b)).
      Proof.
        intros Hp Hk Hd Hb y Y1 Y2. unfold tmp, region in Y1, Y2. assert (Hz : n k * Z.of_nat (length (others p (ins k))) > 0) by lia.
        destruct (Hbuf p Hp) as [B1 B2]. specialize (B1 _ _ b (tmp_res k p Hp Hk Hd Hz) Hb). unfold AwayB, Away in B1. cbn [fst snd] in B1. unfold base in Y1. lia.
      Qed.
      Lemma does_out k p : In k D -> doesk k p = true -> In p (outs k).
      Proof.
        intros Hk H. unfold doesk in H. apply andb_true_iff in H. destruct H as [Hr H]. unfold does in H. destruct (two (ins k)) eqn:E2; [apply memb_in; auto|].
        unfold root in H. destruct (outs k) eqn:E; [destruct (lim k Hk Hr) as (_ & _ & L3); rewrite (L3 E) in E2; discriminate|]. cbn [hd] in H. left. lia.
      Qed.
      Lemma out_range k p : In p (outs k) -> 0 <= p < N.
      Proof. apply (own_range false). Qed.
      Lemma in_range k p : In p (ins k) -> 0 <= p < N.
      Proof. apply (own_range true). Qed.
      Lemma fr_block k p : In k D -> In p (ins k) -> exists b, In b (blocks (pc_old (x p))) /\ forall y, region (fr k p) (n k) y -> region (fst b) (snd b) y.
      Proof.
        intros Hk Hi. assert (Hp := in_range k p Hi). destruct (HX p Hp) as [X1 X2 X3 X4 X5 X6 X7].
        destruct (in_block d Hes N fl tl G sl HP HS p Hp (pc_old (x p)) (pc_next (x p)) (pc_addr (x p)) X1 X2 (t p) (F' p) (HA p Hp) true k Hk Hi) as (b & B1 & B2).
        destruct B2 as [B2 B3]. change (fst b <= fromS d fl p (pc_old (x p)) k) in B2. change (fromS d fl p (pc_old (x p)) k + n k <= fst b + snd b) in B3.
        exists b. split; auto. rewrite fr_in by auto. unfold region. clear - B2 B3. intros y Hy. lia.
      Qed.
      Lemma to_block k p : In k D -> In p (outs k) -> exists b, In b (blocks (t p)) /\ forall y, region (to k p) (n k) y -> region (fst b) (snd b) y.
      Proof.
        intros Hk Hi. assert (Hp := out_range k p Hi). destruct (HX p Hp) as [X1 X2 X3 X4 X5 X6 X7].
        destruct (in_block d Hes N fl tl G sl HP HS p Hp (pc_old (x p)) (pc_next (x p)) (pc_addr (x p)) X1 X2 (t p) (F' p) (HA p Hp) false k Hk Hi) as (b & B1 & B2).
        destruct B2 as [B2 B3]. change (fst b <= toS d tl p (t p) k) in B2. change (toS d tl p (t p) k + n k <= fst b + snd b) in B3.
        exists b. split; auto. rewrite to_in by auto. unfold region. clear - B2 B3. intros y Hy. lia.
      Qed.
      Lemma s_ft k k' p : In k D -> In k' D -> k <> k' -> In p (ins k) -> In p (outs k') -> apart (region (fr k p) (n k)) (region (to k' p) (n k')).
      Proof.
        intros Hk Hk' Hne Hi Ho. assert (Hp := in_range k p Hi). destruct (HX p Hp) as [X1 X2 X3 X4 X5 X6 X7]. rewrite fr_in, to_in by auto.
        apply (sep_ft' d Hes N fl tl G sl HP HS p Hp (pc_old (x p)) (pc_next (x p)) (pc_addr (x p)) X1 X2 (t p) (F' p) (HA p Hp) k k' Hk Hk' Hne Hi Ho).
      Qed.
      Lemma s_to k k' p : In k D -> In k' D -> k <> k' -> In p (outs k) -> In p (outs k') -> apart (region (to k p) (n k)) (region (to k' p) (n k')).
      Proof.
        intros Hk Hk' Hne Hi Ho. assert (Hp := out_range k p Hi). destruct (HX p Hp) as [X1 X2 X3 X4 X5 X6 X7]. rewrite !to_in by auto.
        apply (sep_one d Hes N fl tl G sl HP HS p Hp (pc_old (x p)) (pc_next (x p)) (pc_addr (x p)) X1 X2 (t p) (F' p) (HA p Hp) false k k' Hk Hk' Hne Hi Ho).
      Qed.
      Lemma s_tf k k' p : In k D -> In k' D -> doesk k p = true -> In p (ins k') -> apart (tmp k p) (region (fr k' p) (n k')).
      Proof.
        intros Hk Hk' Hd Hi y Y1 Y2. assert (Hp := in_range k' p Hi). destruct (fr_block k' p Hk' Hi) as (b & B1 & B2).
        refine (tmp_away k p b Hp Hk Hd _ y Y1 (B2 y Y2)). apply in_or_app. auto.
      Qed.
      Lemma s_tt k k' p : In k D -> In k' D -> doesk k p = true -> In p (outs k') -> apart (tmp k p) (region (to k' p) (n k')).
      Proof.
        intros Hk Hk' Hd Hi y Y1 Y2. assert (Hp := out_range k' p Hi). destruct (to_block k' p Hk' Hi) as (b & B1 & B2).
        refine (tmp_away k p b Hp Hk Hd _ y Y1 (B2 y Y2)). apply in_or_app. auto.
      Qed.

      Definition End_ := IEnd (Z * Z) es T red pcnt ins outs fr to base D m.
      Lemma run_stage : Stage N (fun p => prog (rl_trs fl) (rl_trs tl) N p red D (cx p) (place p) T (fromS d fl p (pc_old (x p))) (toS d tl p (t p)) (idf p))
        (fun p mm => mm = m p) End_.
      Proof.
        apply (stage_all (Z * Z) (fun a b => ltac:(decide equality; apply Z.eq_dec)) N es cx T red pcnt ins outs fr to base D m).
        - intros p Hp. reflexivity.
        - intros k Hk. pose proof (seg_lt sl HS k Hk). unfold pcnt. nia.
        - intros k Hk Hr Ho. apply HT; [|]. 
          + apply (red_op k Hk Hr). auto.
          + pose proof (seg_lt sl HS k Hk). unfold pcnt. lia.
        - intros k Hk. apply own_nodup.
        - intros k Hk. apply own_nodup.
        - intros k q Hk. apply in_range.
        - intros k q Hk. apply out_range.
        - intros k Hk Hr. apply (lim k Hk Hr).
        - apply seg_nodup; auto.
        - apply s_ft.
        - intros k p Hk Hi Ho. assert (Hp := in_range k p Hi). destruct (HX p Hp) as [X1 X2 X3 X4 X5 X6 X7]. rewrite fr_in, to_in by auto.
          apply (sep_same' d Hes N fl tl G sl HP HS p Hp (pc_old (x p)) (pc_next (x p)) (pc_addr (x p)) X1 X2 (t p) (F' p) (HA p Hp) k Hk Hi Ho).
        - apply s_to.
        - apply s_tf.
        - apply s_tt.
        - intros k k' p Hk Hk' Hne Hd Hd' y Y1 Y2. assert (Hp := out_range k p (does_out k p Hk Hd)).
          assert (Hz : n k * Z.of_nat (length (others p (ins k))) > 0) by (unfold region in Y1; unfold n; lia).
          assert (Hz' : n k' * Z.of_nat (length (others p (ins k'))) > 0) by (unfold region in Y2; unfold n; lia).
          destruct (Hbuf p Hp) as [B1 B2]. pose proof (B2 _ _ _ _ (tmp_res k p Hp Hk Hd Hz) (tmp_res k' p Hp Hk' Hd' Hz')) as W.
          assert (Hid : idf p k <> idf p k').
          { destruct (Hidf p Hp) as [_ R2]. unfold doesk in Hd, Hd'. apply andb_prop in Hd, Hd'. destruct Hd as [D1 D2]. destruct Hd' as [D3 D4]. apply R2; auto.
            - unfold rsize, resize. change (cx_me (cx p)) with p. fold (ins k) (outs k). rewrite D2. exact Hz.
            - unfold rsize, resize. change (cx_me (cx p)) with p. fold (ins k') (outs k'). rewrite D4. exact Hz'. }
          specialize (W Hid). unfold AwayB, Away in W. cbn [fst snd] in W. unfold region in Y1, Y2. unfold base in Y1, Y2. unfold n in W. lia.
      Qed.

      (* no messages, no reduction: nothing to do for this process *)
      Lemma idle p : 0 <= p < N -> tp_send (pc_ops (x p)) = [] -> tp_recv (pc_ops (x p)) = [] -> tp_red (pc_ops (x p)) = [] -> End_ p (m p).
      Proof.
        intros Hp E1 E2 E3. destruct (ops_ok p Hp) as [HO _]. pose proof (oi_recv _ _ _ _ _ _ _ HO) as R. pose proof (oi_red _ _ _ _ _ _ _ HO) as Q. rewrite E2 in R. rewrite E3 in Q. cbn [map] in R, Q.
        assert (RR : forall k, In k D -> isred k = true -> ~ In p (outs k)).
        { intros k Hk Hr Ho. assert (Z0 : sg_red (rl_trs fl) (rl_trs tl) N p red k = []).
          { destruct (sg_red (rl_trs fl) (rl_trs tl) N p red k) as [|e r] eqn:E; auto. exfalso. assert (In e []); [|auto]. rewrite Q. apply in_flat_map. exists k. split; auto. rewrite E. left; auto. }
          unfold sg_red in Z0. rewrite !memb_two in Z0. fold (pins (rl_trs fl) N k) (pouts (rl_trs tl) N k) in Z0. fold (ins k) (outs k) in Z0. apply memb_in in Ho. rewrite Ho, orb_true_r in Z0.
          pose proof (isred_len k Hr). destruct (ins k) as [|a [|b l]]; try discriminate. cbn in H. congruence. }
        assert (MM : forall k, In k D -> ~ moved (Z * Z) ins outs k p).
        { intros k Hk [M1 M2]. destruct (isred k) eqn:Er; [apply (RR k Hk Er M1)|]. unfold isred, pred in Er. fold (ins k) in Er. destruct (ins k) as [|a [|b l]] eqn:Ei; try discriminate.
          assert (Z0 : sg_recv (rl_trs fl) (rl_trs tl) N p k = []).
          { destruct (sg_recv (rl_trs fl) (rl_trs tl) N p k) as [|e r] eqn:E; auto. exfalso. assert (In e []); [|auto]. rewrite R. apply in_flat_map. exists k. split; auto. rewrite E. left; auto. }
          unfold sg_recv in Z0. rewrite !memb_two in Z0. fold (pins (rl_trs fl) N k) (pouts (rl_trs tl) N k) in Z0. fold (ins k) (outs k) in Z0. apply memb_in in M1. rewrite M1, Ei in Z0.
          destruct (a =? p) eqn:Ea; [|discriminate]. apply M2. f_equal. lia. }
        split; [auto|]. split.
        - intros k Hk Hm. destruct (MM k Hk Hm).
        - intros k Hk _ Hd. exfalso. unfold doesk in *. assert (Ho := does_out k p Hk Hd). apply andb_prop in Hd. apply (RR k Hk (proj1 Hd) Ho).
      Qed.

      (* [B]: further memory which may have been changed, e.g. a buffer *)
      Definition AfterB (B : area) (p : Z) (m' : mem) : Prop :=
        (forall i, Owns tl p i -> exists v, Holds es tl p (t p) m' i v /\ Expected es T red fl x i v) /\
        (forall y, (forall b, In b (blocks (t p)) -> ~ region (fst b) (snd b) y) ->
                   (forall id size, Reserves (acts p) id size -> ~ region (place p id) size y) -> ~ B y -> m' y = m p y).
      Definition After (p : Z) (m' : mem) : Prop :=
        (forall i, Owns tl p i -> exists v, Holds es tl p (t p) m' i v /\ Expected es T red fl x i v) /\
        (forall y, (forall b, In b (blocks (t p)) -> ~ region (fst b) (snd b) y) ->
                   (forall id size, Reserves (acts p) id size -> ~ region (place p id) size y) -> m' y = m p y).

      Lemma first_me_in q g c : NoDup g -> NoDup (first_me q g) /\ (In c (first_me q g) <-> In c g).
      Proof.
        intros ND. pose proof (first_me_perm q g ND) as Pm. split.
        - eapply Permutation_NoDup; [apply Permutation_sym; exact Pm|auto].
        - split; apply Permutation_in; auto. apply Permutation_sym; auto.
      Qed.

      Lemma holds_f k i q : In k D -> fst k <= i0 i < snd k -> In q (ins k) -> Holds es fl q (pc_old (x q)) (pc_mem (x q)) i (element es (i0 i - fst k) (gives (Z * Z) es pcnt fr m k q)).
      Proof.
        intros Hk Hi Hq'. assert (Hp := in_range k q Hq'). destruct (HX q Hp) as [X1 X2 X3 X4 X5 X6 X7].
        destruct (seg_site d N fl tl G sl HP HS q Hp (pc_old (x q)) (pc_next (x q)) (pc_addr (x q)) X2 (t q) (F' q) (HA q Hp) true k Hk Hq') as (j & mp & J1 & J2 & J3).
        unfold gives. rewrite element_rdb by (unfold pcnt; lia). rewrite fr_in by auto.
        replace (fromS d fl q (pc_old (x q)) k + (i0 i - fst k) * es) with (org es mp + i0 i * es) by (change (fromS d fl q (pc_old (x q)) k = org es mp + fst k * es) in J2; rewrite J2; ring).
        apply (site_holds sp es fl q (pc_old (x q)) (i0 i) j mp); auto; first [apply G|rewrite (gd_fltids _ _ _ _ G); auto; fail|apply J3; auto; fail|idtac].
        intros z. apply (g_one sp N fl tl G true q z).
      Qed.
      Lemma holds_t k i p mm : In k D -> fst k <= i0 i < snd k -> In p (outs k) -> Holds es tl p (t p) mm i (element es (i0 i - fst k) (rdb mm (to k p) (n k))).
      Proof.
        intros Hk Hi Hq'. assert (Hp := out_range k p Hq'). destruct (HX p Hp) as [X1 X2 X3 X4 X5 X6 X7].
        destruct (seg_site d N fl tl G sl HP HS p Hp (pc_old (x p)) (pc_next (x p)) (pc_addr (x p)) X2 (t p) (F' p) (HA p Hp) false k Hk Hq') as (j & mp & J1 & J2 & J3).
        unfold n. rewrite element_rdb by (unfold pcnt; lia). rewrite to_in by auto.
        replace (toS d tl p (t p) k + (i0 i - fst k) * es) with (org es mp + i0 i * es) by (change (toS d tl p (t p) k = org es mp + fst k * es) in J2; rewrite J2; ring).
        apply (site_holds sp es tl p (t p) (i0 i) j mp); auto; first [apply G|rewrite (gd_tltids _ _ _ _ G); auto; fail|apply J3; auto; fail|apply (al_cov _ _ _ _ _ _ _ _ (HA p Hp))|idtac].
        intros z. apply (g_one sp N fl tl G false p z).
      Qed.

      (* the value expected for a segment *)
      Lemma final_expected k i p : In k D -> fst k <= i0 i < snd k -> In p (outs k) -> Expected es T red fl x i (element es (i0 i - fst k) (final (Z * Z) es T red pcnt ins outs fr m k p)).
      Proof.
        intros Hk Hi Ho. set (j := i0 i - fst k). assert (Hj : 0 <= j < pcnt k) by (unfold j, pcnt; lia).
        assert (ND : NoDup (ins k)) by apply own_nodup.
        assert (HF : forall ts, NoDup ts -> (forall q, In q ts <-> In q (ins k)) -> NoDup ts /\ (forall q, In q ts <-> Owns fl q i) /\
          Forall2 (fun q w => Holds es fl q (pc_old (x q)) (pc_mem (x q)) i w) ts (map (element es j) (map (gives (Z * Z) es pcnt fr m k) ts))).
        { intros ts N1 N2. split; auto. split; [intros q; rewrite N2; apply own_f; auto|].
          assert (N3 : forall q, In q ts -> In q (ins k)) by (intros q; apply N2). clear N1 N2. rewrite map_map. induction ts as [|q ts IH]; constructor.
          - apply holds_f; auto. apply N3. left; auto.
          - apply IH. intros; apply N3; right; auto. }
        destruct (isred k) eqn:Er.
        - pose (ts := first_me (if two (ins k) then p else root (outs k)) (ins k)).
          destruct (HF ts) as (Q1 & Q2 & Q3); [exact (proj1 (first_me_in _ _ 0 ND))|intros q; exact (proj2 (first_me_in _ _ q ND))|].
          exists ts, (map (element es j) (map (gives (Z * Z) es pcnt fr m k) ts)). split; auto. split; auto. split; auto.
          rewrite final_red by exact Er. apply element_reduce; auto.
          + apply HT. apply (red_op k Hk Er). right. intros C. rewrite C in Ho. destruct Ho.
          + apply Forall_forall. intros v Hv. apply in_map_iff in Hv. destruct Hv as (q & <- & _). apply rdb_len. unfold pcnt in *. nia.
        - unfold isred, pred in Er. fold (ins k) in Er. destruct (ins k) as [|a [|b l]] eqn:Ei; try discriminate.
          destruct (HF [a]) as (Q1 & Q2 & Q3); [auto|tauto|]. exists [a], [element es j (gives (Z * Z) es pcnt fr m k a)]. split; auto. split; auto. split; auto.
          unfold final. rewrite Ei. reflexivity.
      Qed.

      Lemma finish_b (B : area) gen ini p st m0 : 0 <= p < N -> (forall b y, In b (blocks (pc_old (x p)) ++ blocks (t p)) -> region (fst b) (snd b) y -> ~ B y) ->
        End_ p m0 -> (forall y, ~ B y -> p_mem st y = m0 y) -> exists m' fr_,
        do_transition gen d ini (fun _ _ _ => Ok (p_mem st)) (pc_addr (x p)) (pc_ops (x p)) (Some (pc_old (x p))) (pc_next (x p)) (m p) = Ok (t p, m', fr_) /\ AfterB B p m'.
      Proof.
        intros Hp HB HE HM. destruct (HX p Hp) as [X1 X2 X3 X4 X5 X6 X7]. pose proof (HA p Hp) as [(t1 & A1 & A2) A3 A4 A5 A6 A7]. destruct (ops_ok p Hp) as [HO _].
        unfold do_transition. rewrite A1. cbn [obind fst snd]. rewrite A2. cbn [obind].
        assert (EM : exists m1, (match tp_send (pc_ops (x p)), tp_recv (pc_ops (x p)), tp_red (pc_ops (x p)) with [], [], [] => Ok (m p) | _, _, _ => Ok (p_mem st) end) = Ok m1 /\ exists m0, End_ p m0 /\ forall y, ~ B y -> m1 y = m0 y).
        { destruct (tp_send (pc_ops (x p))) eqn:E1; [|eauto 6]. destruct (tp_recv (pc_ops (x p))) eqn:E2; [|eauto 6]. destruct (tp_red (pc_ops (x p))) eqn:E3; [|eauto 6]. exists (m p). split; auto. exists (m p). split; auto. apply idle; auto. }
        clear m0 HE HM. destruct EM as (m1 & EM & m0 & IE & HM). rewrite EM. cbn [obind].
        destruct (local_ok d Hes N fl tl G red sl HP HS p Hp (pc_old (x p)) (pc_next (x p)) (pc_addr (x p)) (pc_ops (x p)) X1 X2 HO (t p) (F' p) (HA p Hp) gen m1) as (m2 & E2 & K2 & V2).
        rewrite E2. cbn [obind]. rewrite (oi_init _ _ _ _ _ _ _ HO). cbn [obind].
        assert (RES : ml_res (F' p) = None) by apply A5. rewrite RES. unfold free_list. rewrite RES. cbn [cassert obind].
        exists m2. eexists. split; [reflexivity|].
        change (forall y, (forall k, In k D -> isloc N fl tl p k = true -> ~ region (toS d tl p (t p) k) (n k) y) -> m2 y = m1 y) in K2.
        change (forall k, In k D -> isloc N fl tl p k = true -> rdb m2 (toS d tl p (t p) k) (n k) = rdb m1 (fromS d fl p (pc_old (x p)) k) (n k)) in V2.
        assert (LI : forall k, isloc N fl tl p k = true -> ins k = [p] /\ In p (outs k)).
        { intros k. apply (isloc_in d N fl tl G p (pc_old (x p)) (t p)). }
        destruct IE as (I1 & I2 & _). split.
        - intros i Hw. destruct (g_own_owns sp N fl tl G false p i) as [Hw' _]. specialize (Hw' Hw).
          assert (Hc : 1 <= cov (rl_trs tl) p (i0 i)) by (unfold owners in Hw'; apply filter_In in Hw'; lia).
          destruct (sg_cover fl tl sl HP HS false p (i0 i) Hc) as (k & Hk & Hi). assert (Ho : In p (outs k)) by (apply (own_t k i p Hk Hi); auto).
          exists (element es (i0 i - fst k) (rdb m2 (to k p) (n k))). split; [apply holds_t; auto|].
          assert (EF : rdb m2 (to k p) (n k) = final (Z * Z) es T red pcnt ins outs fr m k p); [|rewrite EF; apply final_expected; auto].
          destruct (isloc N fl tl p k) eqn:El.
          + destruct (LI k El) as [L1 L2]. rewrite to_in by auto. rewrite V2 by auto. unfold final. rewrite L1. unfold gives. rewrite fr_in by (rewrite L1; left; auto).
            apply rdb_ext. intros y Hy.
            rewrite HM by (destruct (fr_block k p Hk) as (b & B1 & B2); [rewrite L1; left; auto|]; refine (HB b y _ (B2 y _)); [apply in_or_app; auto|rewrite fr_in by (rewrite L1; left; auto); exact Hy]). apply I1.
            * intros k' Hk' Hd Hy'. refine (s_tf k' k p Hk' Hk Hd _ y Hy' _); [rewrite L1; left; auto|]. rewrite fr_in by (rewrite L1; left; auto). exact Hy.
            * intros k' Hk' [M1 M2] Hy'. assert (k <> k') by (intros <-; apply M2; exact L1). refine (s_ft k k' p Hk Hk' H _ M1 y _ Hy'); [rewrite L1; left; auto|].
              rewrite fr_in by (rewrite L1; left; auto). exact Hy.
          + assert (Hmv : moved (Z * Z) ins outs k p).
            { split; auto. intros L1. unfold isloc in El. fold (ins k) (outs k) in El. rewrite L1 in El. apply memb_in in Ho. rewrite Ho, Z.eqb_refl in El. discriminate. }
            rewrite <- (I2 k Hk Hmv). apply rdb_ext. intros y Hy.
            rewrite <- HM by (destruct (to_block k p Hk Ho) as (b & B1 & B2); refine (HB b y _ (B2 y Hy)); apply in_or_app; auto). apply K2. intros k' Hk' El' Hy'. destruct (LI k' El') as [L1 L2].
            assert (k <> k') by (intros <-; congruence). refine (s_to k k' p Hk Hk' H Ho L2 y Hy _). rewrite to_in by auto. exact Hy'.
        - intros y Hb Hr Hn. rewrite K2, HM, I1; auto.
          + intros k Hk Hd Hy. refine (Hr _ _ (tmp_res k p Hp Hk Hd _) Hy). unfold region in Hy. unfold n. lia.
          + intros k Hk [M1 M2] Hy. destruct (to_block k p Hk M1) as (b & B1 & B2). apply (Hb b B1). apply B2. exact Hy.
          + intros k Hk El Hy. destruct (LI k El) as [L1 L2]. destruct (to_block k p Hk L2) as (b & B1 & B2). apply (Hb b B1). apply B2. rewrite to_in by auto. exact Hy.
      Qed.
      Lemma finish gen ini p st : 0 <= p < N -> End_ p (p_mem st) -> exists m' fr_,
        do_transition gen d ini (fun _ _ _ => Ok (p_mem st)) (pc_addr (x p)) (pc_ops (x p)) (Some (pc_old (x p))) (pc_next (x p)) (m p) = Ok (t p, m', fr_) /\ After p m'.
      Proof.
        intros Hp HE. destruct (finish_b (fun _ => False) gen ini p st (p_mem st) Hp) as (m' & fr_ & E & A1 & A2); auto.
        exists m', fr_. split; auto. split; auto.
      Qed.
    End Ids.
  End Run.
End All.
