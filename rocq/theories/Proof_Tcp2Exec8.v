(* All processes of a switch of a 1d container with the TCP2 backend together. *)
From Coq Require Import ZArith List Bool Lia ZifyBool ZifyNat Sorted Permutation.
From Verif Require Import Base ListFacts Model_Space Model_Mem Model_RangeList Model_Layout Model_Partitioner Model_Group Model_Transition Model_Data Model_Action Model_ActionTrans Model_ActionExec Model_ActionExec2 Model_Net Model_Switch Model_Tcp2 Model_Tcp2Exec.
From Verif Require Import Spec_Space Spec_RangeList Spec_Partitioner Spec_Layout Spec_Data Spec_Transition Spec_Action Spec_ActionTrans Spec_Async Spec_Reduce Spec_Net Spec_Switch Spec_Tcp2Exec.
From Verif Require Import Proof_RangeList Proof_Partitioner2 Proof_RangeList4 Proof_RangeList5 Proof_Trans1 Proof_Trans2 Proof_Trans3 Proof_Trans4 Proof_Data Proof_Data3 Proof_Data4 Proof_Data5 Proof_Type Proof_Comb3 Proof_Group Proof_Net Proof_Reduce1 Proof_Reduce2 Proof_Reduce3 Proof_Reduce4 Proof_Switch1 Proof_Switch2 Proof_Switch3 Proof_Switch4 Proof_Switch5 Proof_Switch6 Proof_Switch7 Proof_Switch8 Proof_Switch9.
From Verif Require Import Proof_Tcp2Exec1 Proof_Tcp2Exec2 Proof_Tcp2Exec3 Proof_Tcp2Exec4 Proof_Tcp2Exec6 Proof_Tcp2Exec7.
Import ListNotations.
Open Scope Z_scope.

Section All.
  Variable d : dcont.
  Let sp := dc_space d.
  Let es := dc_es d.
  Hypothesis Hes : 0 < es.
  Variable N : Z.
  Variables fl tl : rlist.
  Hypothesis G : Good1d sp N fl tl.
  Variable red : redop.
  Variable qb : list border -> list border.
  Hypothesis Hq : c_qsort rb_cmp qb.
  Variable T : dtype.
  Hypothesis HT : red <> RO_None -> Elementwise T es red.
  Variable x : Z -> proc.
  Hypothesis HX : forall p, 0 <= p < N -> Ready d qb N fl tl red p (x p).
  Variable bin : Z -> Z -> bool.
  Hypothesis Hfit : FitsTcp bin es.
  Hypothesis Hsource : forall i p, Owns tl p i -> exists q, Owns fl q i.
  Hypothesis Htarget : forall i p q, Owns fl p i -> Owns fl q i -> p <> q -> exists r, Owns tl r i.
  Let sl := qb (allb (rl_trs fl) (rl_trs tl)).
  Let D := segs sl.
  Let ins := pins (rl_trs fl) N.
  Let outs := pouts (rl_trs tl) N.
  Let n (k : Z * Z) := pcnt k * es.
  Let HP : Permutation (allb (rl_trs fl) (rl_trs tl)) sl := proj1 (g_sorted sp N fl tl G qb Hq).
  Let HS : StronglySorted ble sl := proj2 (g_sorted sp N fl tl G qb Hq).
  Let isred (k : Z * Z) := negb (Nat.eqb (length (ins k)) 1).

  Variables t F' : Z -> mlist.
  Hypothesis HA : forall p, 0 <= p < N -> Alloc d tl p (pc_old (x p)) (pc_next (x p)) (pc_addr (x p)) (t p) (F' p).
  Let m p := pc_mem (x p).
  Let fr (k : Z * Z) p := fA (rl_trs fl) N p (fromS d fl p (pc_old (x p))) k.
  Let to (k : Z * Z) p := tA (rl_trs tl) N p (toS d tl p (t p)) k.
  Let mf (k : Z * Z) p := sitem es fl p (F' p) (fst k).
  Let mt (k : Z * Z) p := sitem es tl p (t p) (fst k).

  Lemma fin_ k p : In p (ins k) -> fr k p = fromS d fl p (pc_old (x p)) k.
  Proof. intros H. unfold fr, fA. apply memb_in in H. fold (ins k). rewrite H. auto. Qed.
  Lemma tin_ k p : In p (outs k) -> to k p = toS d tl p (t p) k.
  Proof. intros H. unfold to, tA. apply memb_in in H. fold (outs k). rewrite H. auto. Qed.
  Lemma irng k p : In p (ins k) -> 0 <= p < N.
  Proof. apply (own_range N fl tl true). Qed.
  Lemma orng k p : In p (outs k) -> 0 <= p < N.
  Proof. apply (own_range N fl tl false). Qed.

  Lemma wid k : In k D -> fst k < snd k /\ snd k - fst k < 2 ^ 31.
  Proof.
    intros Hk. split; [apply (seg_lt sl HS k Hk)|]. pose proof (gd_width _ _ _ _ G). unfold D in Hk. rewrite segs_segsZ in Hk. destruct k as [a b].
    apply segsZ_in in Hk; [|apply pos_sorted; auto]. destruct Hk as (_ & B1 & B2 & _). cbn [fst snd].
    apply in_map_iff in B1, B2. destruct B1 as (y & <- & Y). destruct B2 as (z & <- & Z').
    pose proof (g_border sp N fl tl G y (Permutation_in _ (Permutation_sym HP) Y)). pose proof (g_border sp N fl tl G z (Permutation_in _ (Permutation_sym HP) Z')). lia.
  Qed.
  Lemma at_ k : In k D -> fst k <= i0 (mkIdx (fst k) 0 0) < snd k.
  Proof. intros Hk. cbn. destruct (wid k Hk). lia. Qed.
  Lemma srcs k : In k D -> outs k <> [] -> ins k <> [].
  Proof.
    intros Hk Ho. destruct (outs k) as [|p r] eqn:E; [congruence|]. assert (Hp : In p (outs k)) by (rewrite E; left; auto).
    apply (own_t d N fl tl G qb Hq k _ p Hk (at_ k Hk)) in Hp. destruct (Hsource _ _ Hp) as (q & Hq'). apply (own_f d N fl tl G qb Hq k _ q Hk (at_ k Hk)) in Hq'.
    intros C. change (In q (ins k)) in Hq'. rewrite C in Hq'. destruct Hq'.
  Qed.
  Lemma dsts k : In k D -> isred k = true -> ins k <> [] -> outs k <> [].
  Proof.
    intros Hk Hr Hi. unfold isred in Hr. destruct (ins k) as [|p [|q r]] eqn:E; [congruence|discriminate|].
    assert (ND : NoDup (ins k)) by apply own_nodup. rewrite E in ND. assert (p <> q) by (inversion ND as [|? ? C _]; intros ->; apply C; left; auto).
    assert (Hp : In p (ins k)) by (rewrite E; left; auto). assert (Hq' : In q (ins k)) by (rewrite E; right; left; auto).
    apply (own_f d N fl tl G qb Hq k _ _ Hk (at_ k Hk)) in Hp, Hq'. destruct (Htarget _ _ _ Hp Hq' H) as (r' & R). apply (own_t d N fl tl G qb Hq k _ _ Hk (at_ k Hk)) in R.
    intros C. change (In r' (outs k)) in R. rewrite C in R. destruct R.
  Qed.
  Lemma pred_is k : pred (rl_trs fl) N k = isred k.
  Proof. unfold pred, isred. fold (ins k). destruct (ins k) as [|a [|b r]]; auto. Qed.
  Lemma redok k : In k D -> isred k = true -> ins k <> [] -> red <> RO_None /\ Elementwise T es red.
  Proof. intros Hk Hr Hi. assert (H := red_op d N fl tl G red qb Hq x HX k Hk (eq_trans (pred_is k) Hr) (or_introl Hi)). auto. Qed.

  Lemma h_f k p : In k D -> In p (ins k) -> SegOk sp es (mf k p) (fst k) (snd k) (fr k p).
  Proof.
    intros Hk Hi. assert (Hp := irng k p Hi). destruct (HX p Hp) as [X1 X2 X3 X4 X5 X6 X7]. rewrite fin_ by auto.
    apply (seg_ok d N fl tl G sl HP HS p Hp (pc_old (x p)) (pc_next (x p)) (pc_addr (x p)) X1 X2 (t p) (F' p) (HA p Hp) true k Hk Hi).
  Qed.
  Lemma h_t k p : In k D -> In p (outs k) -> SegOk sp es (mt k p) (fst k) (snd k) (to k p).
  Proof.
    intros Hk Hi. assert (Hp := orng k p Hi). destruct (HX p Hp) as [X1 X2 X3 X4 X5 X6 X7]. rewrite tin_ by auto.
    apply (seg_ok d N fl tl G sl HP HS p Hp (pc_old (x p)) (pc_next (x p)) (pc_addr (x p)) X1 X2 (t p) (F' p) (HA p Hp) false k Hk Hi).
  Qed.
  Lemma h_c gen k p mm : In k D -> In p (ins k) -> In p (outs k) -> exists m', tcp_copy gen sp (box1 (fst k) (snd k)) (mf k p) (mt k p) mm = Ok m' /\
    (forall y, ~ region (to k p) ((snd k - fst k) * es) y -> m' y = mm y) /\ rdb m' (to k p) ((snd k - fst k) * es) = rdb mm (fr k p) ((snd k - fst k) * es).
  Proof.
    intros Hk Hi Ho. assert (Hp := irng k p Hi). destruct (HX p Hp) as [X1 X2 X3 X4 X5 X6 X7]. rewrite fin_, tin_ by auto.
    apply (copy_tcp d Hes N fl tl G sl HP HS p Hp (pc_old (x p)) (pc_next (x p)) (pc_addr (x p)) X1 X2 (t p) (F' p) (HA p Hp) gen k mm Hk (proj2 (wid k Hk)) Hi Ho).
  Qed.
  Lemma h_ft k k' p : In k D -> In k' D -> k <> k' -> In p (ins k) -> In p (outs k') -> apart (region (fr k p) ((snd k - fst k) * es)) (region (to k' p) ((snd k' - fst k') * es)).
  Proof. exact (s_ft d Hes N fl tl G red qb Hq x HX t F' HA k k' p). Qed.
  Lemma h_tt k k' p : In k D -> In k' D -> k <> k' -> In p (outs k) -> In p (outs k') -> apart (region (to k p) ((snd k - fst k) * es)) (region (to k' p) ((snd k' - fst k') * es)).
  Proof. exact (s_to d Hes N fl tl G red qb Hq x HX t F' HA k k' p). Qed.
  Let hd1 : sp_dims sp = 1%nat := gd_dims _ _ _ _ G.

  (* what each process does *)
  Lemma h_code q p : 0 <= p < N -> is_qsort (cmp2phase p) q ->
    tcp_code q (trans_ctx d N p (pc_ops (x p)) (Some (F' p)) (t p)) (pc_ops (x p)) (Some (F' p)) (t p) = Ok (flat_map (proj1u p) (allu N D ins outs mf mt red)).
  Proof.
    intros Hp Hqs. destruct (HX p Hp) as [X1 X2 X3 X4 X5 X6 X7]. destruct (ops_ok d N fl tl G red qb Hq x HX p Hp) as [HO _].
    apply (code_ok (rl_trs fl) (rl_trs tl) N p red D (pc_ops (x p)) (trans_ctx d N p (pc_ops (x p)) (Some (F' p)) (t p)) mf mt (Some (F' p)) (t p)); auto.
    - intros k Hk. destruct (wid k Hk). unfold pcnt. lia.
    - intros inp k Hk Ho. assert (cov (if inp then rl_trs fl else rl_trs tl) p (fst k) <= 1) by (destruct inp; [apply (g_one sp N fl tl G true)|apply (g_one sp N fl tl G false)]).
      cbn beta in *. unfold owners in Ho. apply filter_In in Ho. destruct Ho as [_ Ho]. lia.
    - intros k R M Hk Hi HN. exact (num_tcp d N fl tl G sl HP HS p Hp (pc_old (x p)) (pc_next (x p)) (pc_addr (x p)) X1 X2 (t p) (F' p) (HA p Hp) true k R M Hk Hi HN).
    - intros k R M Hk Hi HN. exact (num_tcp d N fl tl G sl HP HS p Hp (pc_old (x p)) (pc_next (x p)) (pc_addr (x p)) X1 X2 (t p) (F' p) (HA p Hp) false k R M Hk Hi HN).
    - intros k Hk Hi Hr. apply (dsts k Hk); auto. rewrite <- pred_is. auto.
  Qed.

  Definition TEnd (p : Z) (mm : mem) : Prop :=
    (forall y, (forall k, In k D -> In p (outs k) -> ins k <> [p] -> ~ region (to k p) (n k) y) -> mm y = m p y) /\
    (forall k, In k D -> In p (outs k) -> ins k <> [p] -> rdb mm (to k p) (n k) = fin T es ins outs fr red m k).

  Lemma h_run gen code : (forall p, 0 <= p < N -> code p = flat_map (proj1u p) (allu N D ins outs mf mt red)) ->
    exists E, TcpEnds (fun o a b => Ok (dt_red T o 1 a b)) gen bin sp N (tnet_start code m) (fun p mm => mm = E p) /\ forall p, TEnd p (E p).
  Proof.
    intros Hc.
    destruct (all_ok T gen bin sp es hd1 Hes Hfit N D ins outs fr to mf mt red m wid (seg_nodup sl HS) h_f h_t (fun k p _ => irng k p) (fun k p _ => orng k p)
      (fun k _ => own_nodup N (rl_trs fl) (fst k)) h_ft h_tt (h_c gen) redok srcs dsts) as (E & W & HE & HI & HW).
    exists E. split.
    - apply (all_end _ gen bin sp N (allu N D ins outs mf mt red) code m E); auto.
      apply (all_uok T gen sp es hd1 N D ins outs fr to mf mt red wid h_f h_t (fun k p _ => irng k p) (fun k p _ => orng k p)
        (fun k _ => own_nodup N (rl_trs fl) (fst k)) h_ft h_tt (h_c gen) redok srcs dsts).
    - intros p. destruct (HI p) as [I1 I2]. split.
      + intros y Hy. apply I1. intros k Hk. apply HW in Hk. destruct Hk as (K1 & K2 & K3). apply (Hy k K1 K2 K3).
      + intros k K1 K2 K3. apply (I2 k). apply HW. auto.
  Qed.

  (* no messages, no reduction: nothing to do for this process *)
  Lemma h_idle p : 0 <= p < N -> tp_send (pc_ops (x p)) = [] -> tp_recv (pc_ops (x p)) = [] -> tp_red (pc_ops (x p)) = [] -> TEnd p (m p).
  Proof.
    intros Hp E1 E2 E3. destruct (ops_ok d N fl tl G red qb Hq x HX p Hp) as [HO _]. pose proof (oi_recv _ _ _ _ _ _ _ HO) as R. pose proof (oi_red _ _ _ _ _ _ _ HO) as Q. rewrite E2 in R. rewrite E3 in Q. cbn [map] in R, Q.
    assert (RR : forall k, In k D -> isred k = true -> ~ In p (outs k)).
    { intros k Hk Hr Ho. assert (Z0 : sg_red (rl_trs fl) (rl_trs tl) N p red k = []).
      { destruct (sg_red (rl_trs fl) (rl_trs tl) N p red k) as [|e r] eqn:E; auto. exfalso. assert (In e []); [|auto]. rewrite Q. apply in_flat_map. exists k. split; auto. rewrite E. left; auto. }
      unfold sg_red in Z0. rewrite !memb_two in Z0. fold (pins (rl_trs fl) N k) (pouts (rl_trs tl) N k) in Z0. fold (ins k) (outs k) in Z0. apply memb_in in Ho. rewrite Ho, orb_true_r in Z0.
      unfold isred in Hr. destruct (ins k) as [|a [|b l]]; try discriminate. }
    assert (MM : forall k, In k D -> In p (outs k) -> ins k <> [p] -> False).
    { intros k Hk M1 M2. destruct (isred k) eqn:Er; [apply (RR k Hk Er M1)|]. unfold isred in Er. destruct (ins k) as [|a [|b l]] eqn:Ei; try discriminate.
      assert (Z0 : sg_recv (rl_trs fl) (rl_trs tl) N p k = []).
      { destruct (sg_recv (rl_trs fl) (rl_trs tl) N p k) as [|e r] eqn:E; auto. exfalso. assert (In e []); [|auto]. rewrite R. apply in_flat_map. exists k. split; auto. rewrite E. left; auto. }
      unfold sg_recv in Z0. rewrite !memb_two in Z0. fold (pins (rl_trs fl) N k) (pouts (rl_trs tl) N k) in Z0. fold (ins k) (outs k) in Z0. apply memb_in in M1. rewrite M1, Ei in Z0.
      destruct (a =? p) eqn:Ea; [|discriminate]. apply M2. f_equal. lia. }
    split; [auto|]. intros k Hk H1 H2. destruct (MM k Hk H1 H2).
  Qed.

  Lemma gholds k i q : In k D -> fst k <= i0 i < snd k -> In q (ins k) -> Holds es fl q (pc_old (x q)) (pc_mem (x q)) i (element es (i0 i - fst k) (val0 es fr m k q)).
  Proof.
    intros Hk Hi Hq'. assert (Hp := irng k q Hq'). destruct (HX q Hp) as [X1 X2 X3 X4 X5 X6 X7].
    destruct (seg_site d N fl tl G sl HP HS q Hp (pc_old (x q)) (pc_next (x q)) (pc_addr (x q)) X2 (t q) (F' q) (HA q Hp) true k Hk Hq') as (j & mp & J1 & J2 & J3).
    unfold val0. rewrite element_rdb by lia. rewrite fin_ by auto.
    replace (fromS d fl q (pc_old (x q)) k + (i0 i - fst k) * es) with (org es mp + i0 i * es) by (change (fromS d fl q (pc_old (x q)) k = org es mp + fst k * es) in J2; rewrite J2; ring).
    apply (site_holds sp es fl q (pc_old (x q)) (i0 i) j mp); auto; first [apply G|rewrite (gd_fltids _ _ _ _ G); auto; fail|apply J3; auto; fail|idtac].
    intros z. apply (g_one sp N fl tl G true q z).
  Qed.
  Lemma tholds k i p mm : In k D -> fst k <= i0 i < snd k -> In p (outs k) -> Holds es tl p (t p) mm i (element es (i0 i - fst k) (rdb mm (to k p) (n k))).
  Proof.
    intros Hk Hi Hq'. assert (Hp := orng k p Hq'). destruct (HX p Hp) as [X1 X2 X3 X4 X5 X6 X7].
    destruct (seg_site d N fl tl G sl HP HS p Hp (pc_old (x p)) (pc_next (x p)) (pc_addr (x p)) X2 (t p) (F' p) (HA p Hp) false k Hk Hq') as (j & mp & J1 & J2 & J3).
    unfold n. rewrite element_rdb by (unfold pcnt; lia). rewrite tin_ by auto.
    replace (toS d tl p (t p) k + (i0 i - fst k) * es) with (org es mp + i0 i * es) by (change (toS d tl p (t p) k = org es mp + fst k * es) in J2; rewrite J2; ring).
    apply (site_holds sp es tl p (t p) (i0 i) j mp); auto; first [apply G|rewrite (gd_tltids _ _ _ _ G); auto; fail|apply J3; auto; fail|apply (al_cov _ _ _ _ _ _ _ _ (HA p Hp))|idtac].
    intros z. apply (g_one sp N fl tl G false p z).
  Qed.

  (* the value expected for a segment *)
  Lemma fexpected k i : In k D -> fst k <= i0 i < snd k -> ins k <> [] -> Expected es T red fl x i (element es (i0 i - fst k) (fin T es ins outs fr red m k)).
  Proof.
    intros Hk Hi Hne. set (j := i0 i - fst k). assert (Hj : 0 <= j < snd k - fst k) by (unfold j; lia).
    assert (ND : NoDup (ins k)) by apply own_nodup.
    set (ts := first_me (hd 0 (outs k)) (ins k)).
    assert (T1 : NoDup ts) by exact (proj1 (first_me_in _ _ 0 ND)). assert (T2 : forall q, In q ts <-> In q (ins k)) by (intros q; exact (proj2 (first_me_in _ _ q ND))).
    exists ts, (map (element es j) (map (val0 es fr m k) ts)). split; auto. split; [intros q; rewrite T2; apply (own_f d N fl tl G qb Hq); auto|]. split.
    - assert (N3 : forall q, In q ts -> In q (ins k)) by (intros q; apply T2). clear T1 T2. rewrite map_map. induction ts as [|q ts' IH]; constructor.
      + apply gholds; auto. apply N3. left; auto.
      + apply IH. intros; apply N3; right; auto.
    - unfold fin. fold ts. destruct (isred k) eqn:Er.
      + apply element_reduce; auto; [apply (redok k Hk Er Hne)|].
        apply Forall_forall. intros v Hv. apply in_map_iff in Hv. destruct Hv as (q & <- & _). unfold val0. apply rdb_len. nia.
      + unfold isred in Er. assert (L : length ts = length (ins k)) by (apply Permutation_length, first_me_perm, ND).
        destruct ts as [|a [|b r]]; cbn [length] in L; [|reflexivity|]; destruct (ins k) as [|a' [|b' r']]; cbn [length] in L; try discriminate; congruence.
  Qed.

  Lemma h_finish gen ini p mm : 0 <= p < N -> TEnd p mm -> exists m' fr_,
    do_transition gen d ini (fun _ _ _ => Ok mm) (pc_addr (x p)) (pc_ops (x p)) (Some (pc_old (x p))) (pc_next (x p)) (m p) = Ok (t p, m', fr_) /\
    (forall i, Owns tl p i -> exists v, Holds es tl p (t p) m' i v /\ Expected es T red fl x i v) /\
    (forall y, (forall b, In b (blocks (t p)) -> ~ region (fst b) (snd b) y) -> m' y = m p y).
  Proof.
    intros Hp HE. destruct (HX p Hp) as [X1 X2 X3 X4 X5 X6 X7]. pose proof (HA p Hp) as [(t1 & A1 & A2) A3 A4 A5 A6 A7]. destruct (ops_ok d N fl tl G red qb Hq x HX p Hp) as [HO _].
    unfold do_transition. rewrite A1. cbn [obind fst snd]. rewrite A2. cbn [obind].
    assert (EM : exists m1, (match tp_send (pc_ops (x p)), tp_recv (pc_ops (x p)), tp_red (pc_ops (x p)) with [], [], [] => Ok (m p) | _, _, _ => Ok mm end) = Ok m1 /\ TEnd p m1).
    { destruct (tp_send (pc_ops (x p))) eqn:E1; [|eauto]. destruct (tp_recv (pc_ops (x p))) eqn:E2; [|eauto]. destruct (tp_red (pc_ops (x p))) eqn:E3; [|eauto]. exists (m p). split; auto. apply h_idle; auto. }
    destruct EM as (m1 & EM & IE). rewrite EM. cbn [obind].
    destruct (local_ok d Hes N fl tl G red sl HP HS p Hp (pc_old (x p)) (pc_next (x p)) (pc_addr (x p)) (pc_ops (x p)) X1 X2 HO (t p) (F' p) (HA p Hp) gen m1) as (m2 & E2 & K2 & V2).
    rewrite E2. cbn [obind]. rewrite (oi_init _ _ _ _ _ _ _ HO). cbn [obind].
    assert (RES : ml_res (F' p) = None) by apply A5. rewrite RES. unfold free_list. rewrite RES. cbn [cassert obind].
    exists m2. eexists. split; [reflexivity|].
    change (forall y, (forall k, In k D -> isloc N fl tl p k = true -> ~ region (toS d tl p (t p) k) (n k) y) -> m2 y = m1 y) in K2.
    change (forall k, In k D -> isloc N fl tl p k = true -> rdb m2 (toS d tl p (t p) k) (n k) = rdb m1 (fromS d fl p (pc_old (x p)) k) (n k)) in V2.
    assert (LI : forall k, isloc N fl tl p k = true -> ins k = [p] /\ In p (outs k)).
    { intros k. apply (isloc_in d N fl tl G p (pc_old (x p)) (t p)). }
    destruct IE as (I1 & I2). split.
    - intros i Hw. destruct (g_own_owns sp N fl tl G false p i) as [Hw' _]. specialize (Hw' Hw).
      assert (Hc : 1 <= cov (rl_trs tl) p (i0 i)) by (unfold owners in Hw'; apply filter_In in Hw'; lia).
      destruct (sg_cover fl tl sl HP HS false p (i0 i) Hc) as (k & Hk & Hi). assert (Ho : In p (outs k)) by (apply (own_t d N fl tl G qb Hq k i p Hk Hi); auto).
      exists (element es (i0 i - fst k) (rdb m2 (to k p) (n k))). split; [apply tholds; auto|].
      assert (Hne : ins k <> []) by (apply (srcs k Hk); intros C; rewrite C in Ho; destruct Ho).
      assert (EF : rdb m2 (to k p) (n k) = fin T es ins outs fr red m k); [|rewrite EF; apply fexpected; auto].
      destruct (isloc N fl tl p k) eqn:El.
      + destruct (LI k El) as [L1 L2]. rewrite tin_ by auto. rewrite V2 by auto. unfold fin, val0. rewrite L1.
        assert (FM : first_me (hd 0 (outs k)) [p] = [p]).
        { pose proof (first_me_perm (hd 0 (outs k)) [p] (NoDup_cons p (@in_nil _ p) (NoDup_nil _))) as PM. apply Permutation_sym, Permutation_length_1_inv in PM. exact PM. }
        rewrite FM. cbn [map]. unfold reduce_all. cbn [fold_left]. rewrite fin_ by (rewrite L1; left; auto).
        apply rdb_ext. intros y Hy. apply I1.
        intros k' Hk' M1 M2 Hy'. assert (k <> k') by (intros <-; apply M2; exact L1). refine (h_ft k k' p Hk Hk' H _ M1 y _ Hy'); [rewrite L1; left; auto|].
        rewrite fin_ by (rewrite L1; left; auto). exact Hy.
      + assert (Hmv : ins k <> [p]).
        { intros L1. unfold isloc in El. fold (ins k) (outs k) in El. rewrite L1 in El. apply memb_in in Ho. rewrite Ho, Z.eqb_refl in El. discriminate. }
        rewrite <- (I2 k Hk Ho Hmv). apply rdb_ext. intros y Hy. apply K2. intros k' Hk' El' Hy'. destruct (LI k' El') as [L1 L2].
        assert (k <> k') by (intros <-; congruence). refine (h_tt k k' p Hk Hk' H Ho L2 y Hy _). rewrite tin_ by auto. exact Hy'.
    - intros y Hb. rewrite K2, I1; auto.
      + intros k Hk M1 M2 Hy. destruct (to_block d Hes N fl tl G red qb Hq x HX t F' HA k p Hk M1) as (b & B1 & B2). apply (Hb b B1). apply B2. exact Hy.
      + intros k Hk El Hy. destruct (LI k El) as [L1 L2]. destruct (to_block d Hes N fl tl G red qb Hq x HX t F' HA k p Hk L2) as (b & B1 & B2). apply (Hb b B1). apply B2. fold (to k p). rewrite tin_ by auto. exact Hy.
  Qed.
End All.
