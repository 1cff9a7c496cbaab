(* Properties C10-C17 and C48: partitioners *)
From Coq Require Import ZArith List Bool Lia Permutation Sorted QArith.
From Verif Require Import Base Model_Space Spec_Space Proof_Space Model_RangeList Spec_RangeList
  Proof_RangeList Proof_RangeList2 Proof_RangeList3 Proof_RangeList4 Proof_RangeList5 Proof_Cover
  Model_Partitioner Model_Double Spec_Partitioner Proof_Partitioner Proof_Partitioner2 Proof_Partitioner3
  Proof_Partitioner4 Proof_Block Proof_BlockExact Proof_Reassign Proof_Filter Proof_Grid.
Import ListNotations.
Open Scope Z_scope.

(* ---- concrete cases ---- *)
Definition exq : sorts := mkSorts (isort trgen_cmp) (isort tss1d_cmp) (isort trgen_cmpfrom).
Lemma exq_good : good_sorts exq.
Proof. split; [exact isort_trgen|]. split; [exact isort_tss1d|exact isort_from]. Qed.
Definition exgroup (n me : Z) : group := mkGroup 1 n me None [] [] None [] [] (map Z.of_nat (seq 0 (Z.to_nat n))).
Definition exsp (n : Z) : space := mkSpace 7 1 (mkBox (mkIdx 0 0 0) (mkIdx n 0 0)).
Definition exsp3 (a b c : Z) : space := mkSpace 9 3 (mkBox (mkIdx 0 0 0) (mkIdx a b c)).
Definition exrng (n a b : Z) : range := mkRange (Some (exsp n)) (mkBox (mkIdx a 0 0) (mkIdx b 0 0)).
(* a partitioner making the given calls *)
Definition fixed (cs : list acall) (merge : bool) : partitioner := mkPartitioner (fun _ => Ok cs) merge false.
Definition unweighted {W} (cycles : Z) : blockdata W := mkBlockdata (W := W) 0%nat cycles None None.

(* a list made by a successful run is frozen *)
Lemma run_frozen q pr p sf l : good_sorts q -> valid_dims (sp_dims (pp_space p)) -> 0 <= g_size (pp_group p) ->
  run_partitioner q pr p sf = Ok l -> FrozenList l.
Proof. intros A B C D. destruct (run_partitioner_ok _ _ _ _ _ A B C D) as [cs [l0 [_ [_ [_ [F _]]]]]]. auto. Qed.

(* ---------- C10: block partitioner ---------- *)

(* For all weights and any arithmetic (W, A): the blocks follow each other without gap
   along the partitioned dimension, block number n goes to process n mod count, and block
   numbers increase. *)
Theorem C10_block_structure : forall W (A : warith W) (D : blockdata W) q p l,
  good_sorts q -> valid_dims (sp_dims (pp_space p)) -> 0 < g_size (pp_group p) ->
  0 < bd_cycles D -> (bd_pdim D < sp_dims (pp_space p))%nat ->
  run_partitioner q (block_partitioner A D) p None = Ok l ->
  exists h, pr_run (block_partitioner A D) p = Ok h /\
    exists parts : list (Z * (Z * Z)),
      h = map (fun x => ACrange (fst x mod g_size (pp_group p))
             (mkRange (Some (pp_space p))
               (mkBox (idx_set (b_from (sp_box (pp_space p))) (bd_pdim D) (fst (snd x)))
                      (idx_set (b_to (sp_box (pp_space p))) (bd_pdim D) (snd (snd x))))) 0) parts /\
      Consec (idx_get (b_from (sp_box (pp_space p))) (bd_pdim D))
             (idx_get (b_to (sp_box (pp_space p))) (bd_pdim D)) (map snd parts) /\
      StronglySorted Z.lt (map fst parts) /\
      Forall (fun n => 0 <= n < g_size (pp_group p) * bd_cycles D) (map fst parts).
Proof. intros W A D q p l H1 H2 H3 H4 H5 H6. apply (block_owns A D q p l H1 H2 H3 H4 H5 H6). Qed.

(* As seen in the resulting partitioning *)
Theorem C10_block_ownership : forall W (A : warith W) (D : blockdata W) q p l,
  good_sorts q -> valid_dims (sp_dims (pp_space p)) -> 0 < g_size (pp_group p) ->
  0 < bd_cycles D -> (bd_pdim D < sp_dims (pp_space p))%nat ->
  run_partitioner q (block_partitioner A D) p None = Ok l ->
  (forall i, InBox (sp_dims (pp_space p)) i (sp_box (pp_space p)) ->
     exists t, 0 <= t < g_size (pp_group p) /\ Owns l t i) /\
  Unique l /\
  (forall t, 0 <= t < g_size (pp_group p) -> exists n, rl_tidrangecount l t = Ok n /\ 0 <= n <= bd_cycles D) /\
  (bd_cycles D = 1 -> forall t u i j, t < u -> Owns l t i -> Owns l u j ->
     idx_get i (bd_pdim D) < idx_get j (bd_pdim D)).
Proof.
  intros W A D q p l H1 H2 H3 H4 H5 H6.
  destruct (block_owns A D q p l H1 H2 H3 H4 H5 H6) as [K1 [K2 [K3 [K4 _]]]]. auto.
Qed.

(* In 1d the result is accepted whenever the partitioner does not hit its assertion;
   and there is no other way to fail: no endless loop, no undefined behaviour. *)
Theorem C10_block_1d_accepted : forall W (A : warith W) (D : blockdata W) q p,
  good_sorts q -> sp_dims (pp_space p) = 1%nat -> bd_pdim D = 0%nat -> 0 < g_size (pp_group p) -> 0 < bd_cycles D ->
  (forall o, pp_other p = Some o -> op_group o = pp_group p) ->
  (exists l, run_partitioner q (block_partitioner A D) p None = Ok l) \/
  (pr_run (block_partitioner A D) p = Abort \/ pr_run (block_partitioner A D) p = Panic).
Proof.
  intros W A D q p H1 H2 H3 H4 H5 H6. pose proof (block_defined A D p H4 H5) as Df.
  destruct (pr_run (block_partitioner A D) p) eqn:E; simpl in Df; auto; try contradiction.
  left. eapply block_accepted; eauto.
Qed.

(* With exact arithmetic and no weights: succeeds iff there are at most two blocks per
   index, and block k is [S*k/N; S*(k+1)/N[ with rounded borders *)
Theorem C10_block_exact : forall (D : blockdata Q) sp count, 0 < count -> 0 < bd_cycles D ->
  bd_idxW D = None -> bd_taskW D = None ->
  let base := idx_get (b_from (sp_box sp)) (bd_pdim D) in
  let S := idx_get (b_to (sp_box sp)) (bd_pdim D) - base in
  let N := count * bd_cycles D in
  let border k := base + (2 * k * S + N - 1) / (2 * N) in
  0 < S ->
  blk_run (mkWarith Q Qplus Qminus Qmult Qdiv (fun a b => Qle_bool b a) inject_Z (-1 # 2)%Q) D sp count =
  if N <=? 2 * S then
    Ok (flat_map (fun n =>
          if border n <? border (n + 1)
          then [ACrange (n mod count) (mkRange (Some sp)
                  (mkBox (idx_set (b_from (sp_box sp)) (bd_pdim D) (border n))
                         (idx_set (b_to (sp_box sp)) (bd_pdim D) (border (n + 1))))) 0]
          else []) (zcount N))
  else Abort.
Proof. intros D sp count H1 H2 H3 H4 base S N border H5. exact (block_exact D sp count H1 H2 H3 H4 H5). Qed.

(* and then block sizes differ by at most 1 *)
Theorem C10_block_exact_balanced : forall S N k, 0 < S -> 0 < N -> 0 <= k ->
  let border k := (2 * k * S + N - 1) / (2 * N) in
  S / N <= border (k + 1) - border k <= S / N + (if S mod N =? 0 then 0 else 1).
Proof.
  intros S N k H1 H2 H3 border.
  pose proof (border_balanced (mkBlockdata (W := Q) 0%nat 1 None None) (mkSpace 0 1 (mkBox (mkIdx 0 0 0) (mkIdx S 0 0))) N H2 eq_refl) as K.
  unfold Proof_BlockExact.border, blk_size, blk_base in K. simpl in K. rewrite Z.mul_1_r, Z.sub_0_r in K.
  specialize (K H1 k H3). unfold border. lia.
Qed.

(* Not always successful: 2 indexes over 5 processes, IEEE doubles *)
Theorem C10_block_abort_refuted : exists (p : pparams), sp_dims (pp_space p) = 1%nat /\
  NonEmpty 1 (sp_box (pp_space p)) /\ 0 < g_size (pp_group p) /\
  run_partitioner exq (block_partitioner ieee (unweighted 1)) p None = Abort.
Proof.
  exists (mkParams (exsp 2) (exgroup 5 0) None). split; [reflexivity|]. split; [exists (mkIdx 0 0 0); unfold InBox; simpl; lia|].
  split; [reflexivity|]. vm_compute. reflexivity.
Qed.

(* A cycle count of 0 is accepted by laik_set_cycle_count but never works *)
Theorem C10_zero_cycles_refuted : exists (p : pparams), sp_dims (pp_space p) = 1%nat /\
  bd_cycles (set_cycle_count (W := SpecFloat.spec_float) (unweighted 1) 0) = 0 /\
  run_partitioner exq (block_partitioner ieee (set_cycle_count (unweighted 1) 0)) p None = Abort.
Proof. exists (mkParams (exsp 20) (exgroup 3 0) None). vmsplit. Qed.

Definition ex_block (n g : Z) := run_partitioner exq (block_partitioner ieee (unweighted 1)) (mkParams (exsp n) (exgroup g 0) None) None.
(* 20 indexes, weight of index i is i, two cycles over 3 processes, doubles *)
Example C10_case : exists l,
  run_partitioner exq (block_partitioner ieee
      (mkBlockdata 0%nat 2 (Some (fun i => dbl_ofZ (i0 i))) None)) (mkParams (exsp 20) (exgroup 3 0) None) None = Ok l /\
  map (fun x => (t_task x, i0 (b_from (t_box x)), i0 (b_to (t_box x)))) (rl_trs l) =
   [(0, 0, 8); (0, 14, 16); (1, 8, 11); (1, 16, 18); (2, 11, 14); (2, 18, 20)].
Proof. eexists. vmsplit. Qed.
Example C10_case_exact : 7 * 1 <=? 2 * 20 = true /\
  blk_run qarith (unweighted 1) (exsp 20) 7 <> Abort.
Proof. split; [reflexivity|]. vm_compute. discriminate. Qed.

(* ---------- C11: bisection ---------- *)

Theorem C11_bisection : forall q p l, good_sorts q -> valid_dims (sp_dims (pp_space p)) -> 0 <= g_size (pp_group p) ->
  Ordered (sp_dims (pp_space p)) (sp_box (pp_space p)) ->
  run_partitioner q bisection_partitioner p None = Ok l ->
  (forall i, InBox (sp_dims (pp_space p)) i (sp_box (pp_space p)) ->
     exists t, 0 <= t < g_size (pp_group p) /\ Owns l t i) /\
  Unique l /\
  (forall t, 0 <= t < g_size (pp_group p) -> exists n, rl_tidrangecount l t = Ok n /\ 0 <= n <= 1).
Proof. exact bisection_owns. Qed.

(* In 1d with at least one index per process it always succeeds, and everyone gets some *)
Theorem C11_bisection_1d_total : forall q p, good_sorts q -> sp_dims (pp_space p) = 1%nat ->
  (forall o, pp_other p = Some o -> op_group o = pp_group p) ->
  0 < g_size (pp_group p) ->
  g_size (pp_group p) <= i0 (b_to (sp_box (pp_space p))) - i0 (b_from (sp_box (pp_space p))) ->
  exists l, run_partitioner q bisection_partitioner p None = Ok l /\
    forall t, 0 <= t < g_size (pp_group p) -> exists i, Owns l t i.
Proof. exact bisection_1d_total. Qed.

(* Otherwise it may abort *)
Theorem C11_bisection_abort_refuted : exists p, sp_dims (pp_space p) = 1%nat /\ NonEmpty 1 (sp_box (pp_space p)) /\
  0 < g_size (pp_group p) /\ run_partitioner exq bisection_partitioner p None = Abort.
Proof.
  exists (mkParams (exsp 2) (exgroup 5 0) None). split; [reflexivity|]. split; [exists (mkIdx 0 0 0); unfold InBox; simpl; lia|].
  split; [reflexivity|]. vm_compute. reflexivity.
Qed.

(* and in 2d a process may get nothing although there is an index for each *)
Theorem C11_bisection_empty_refuted : exists p l, sp_dims (pp_space p) = 2%nat /\ g_size (pp_group p) = 3 /\
  sp_box (pp_space p) = mkBox (mkIdx 0 0 0) (mkIdx 2 2 0) /\
  run_partitioner exq bisection_partitioner p None = Ok l /\ forall i, ~ Owns l 0 i.
Proof.
  exists (mkParams (mkSpace 1 2 (mkBox (mkIdx 0 0 0) (mkIdx 2 2 0))) (exgroup 3 0) None).
  eexists. split; [reflexivity|]. split; [reflexivity|]. split; [reflexivity|].
  match goal with |- ?a = _ /\ _ => assert (R : a = Ok ltac:(let v := eval vm_compute in a in match v with Ok ?l => exact l end)) by (vm_compute; reflexivity) end.
  split; [exact R|]. apply run_frozen in R; [|exact exq_good|right; left; reflexivity|simpl; lia].
  intros i O. apply owns_iff_trs in O; auto. destruct O as [x [Hx [Ht Hi]]]. simpl in Hx.
  destruct Hx as [<-|[<-|[<-|[]]]]; simpl in Ht; try discriminate. unfold InBox in Hi; simpl in Hi. lia.
Qed.

Example C11_case : exists l, run_partitioner exq bisection_partitioner (mkParams (exsp3 4 3 2) (exgroup 5 0) None) None = Ok l /\
  map (fun x => (t_task x, b_from (t_box x), b_to (t_box x))) (rl_trs l) =
  [(0, mkIdx 0 0 0, mkIdx 1 1 2); (1, mkIdx 0 1 0, mkIdx 1 3 2); (2, mkIdx 1 0 0, mkIdx 2 3 2);
   (3, mkIdx 2 0 0, mkIdx 4 1 2); (4, mkIdx 2 1 0, mkIdx 4 3 2)].
Proof. eexists. vmsplit. Qed.

(* ---------- C12: All, Master, Copy ---------- *)

Theorem C12_all : forall q p l, good_sorts q -> valid_dims (sp_dims (pp_space p)) -> 0 <= g_size (pp_group p) ->
  run_partitioner q all_partitioner p None = Ok l ->
  forall t i, Owns l t i <-> 0 <= t < g_size (pp_group p) /\ InBox (sp_dims (pp_space p)) i (sp_box (pp_space p)).
Proof. exact all_owns. Qed.

Theorem C12_master : forall q p l, good_sorts q -> valid_dims (sp_dims (pp_space p)) -> 0 <= g_size (pp_group p) ->
  run_partitioner q master_partitioner p None = Ok l ->
  forall t i, Owns l t i <-> t = 0 /\ InBox (sp_dims (pp_space p)) i (sp_box (pp_space p)).
Proof. exact master_owns. Qed.

(* both always succeed on non-empty spaces *)
Theorem C12_all_master_total : forall q p, good_sorts q -> pp_other p = None -> valid_dims (sp_dims (pp_space p)) ->
  NonEmpty (sp_dims (pp_space p)) (sp_box (pp_space p)) -> 0 < g_size (pp_group p) ->
  (exists l, run_partitioner q all_partitioner p None = Ok l) /\
  (exists l, run_partitioner q master_partitioner p None = Ok l).
Proof. intros q p H1 H2 H3 H4 H5. split; [exact (all_total q p H1 H2 H3 H4 H5)|exact (master_total q p H1 H2 H3 H4 H5)]. Qed.

(* Copy: process t owns i iff it owns, in the source, an index with the same coordinate
   in the copied dimension *)
Theorem C12_copy : forall q p l o lo fd td,
  good_sorts q -> valid_dims (sp_dims (pp_space p)) -> 0 <= g_size (pp_group p) ->
  pp_other p = Some o -> op_all o = Some lo -> FrozenList lo -> rl_space lo = op_space o -> NoEmpty lo ->
  run_partitioner q (copy_partitioner fd td) p None = Ok l ->
  forall t i, Owns l t i <->
    InBox (sp_dims (pp_space p)) i (sp_box (pp_space p)) /\
    exists j, Owns lo t j /\ idx_get j fd = idx_get i td.
Proof. exact copy_owns. Qed.

Definition ex_base : outcome rlist :=
  run_partitioner exq (block_partitioner ieee (unweighted 1)) (mkParams (exsp 20) (exgroup 3 0) None) None.
Definition ex_lo : rlist := Eval vm_compute in match ex_base with Ok l => l | _ => rl_new (exsp 20) 3 end.
Lemma ex_lo_eq : ex_base = Ok ex_lo.
Proof. vm_compute. reflexivity. Qed.
Lemma ex_lo_frozen : FrozenList ex_lo.
Proof.
  pose proof ex_lo_eq as R. unfold ex_base in R. generalize dependent ex_lo. intros lo R.
  refine (run_frozen _ _ _ _ _ exq_good _ _ R); [left; reflexivity|simpl; lia].
Qed.
Lemma ex_lo_noempty : NoEmpty ex_lo.
Proof.
  intros t n x H. apply (frozen_range_in _ _ _ _ ex_lo_frozen) in H. destruct H as [H _].
  assert (E : rl_trs ex_lo = ltac:(let v := eval vm_compute in (rl_trs ex_lo) in exact v)) by (vm_compute; reflexivity).
  rewrite E in H. simpl in H.
  destruct H as [<-|[<-|[<-|[]]]]; [exists (mkIdx 0 0 0)|exists (mkIdx 7 0 0)|exists (mkIdx 14 0 0)]; unfold InBox; simpl; lia.
Qed.
Definition ex_o : opart := mkOpart (exgroup 3 0) (exsp 20) (Some ex_lo).

(* the hypotheses for derived partitioners are met by a run of the block partitioner *)
Example C12_case : FrozenList ex_lo /\ NoEmpty ex_lo /\ rl_space ex_lo = op_space ex_o /\
  exists l, run_partitioner exq (copy_partitioner 0 1)
     (mkParams (mkSpace 3 2 (mkBox (mkIdx 5 0 0) (mkIdx 9 20 0))) (exgroup 3 0) (Some ex_o)) None = Ok l /\
  map (fun x => (t_task x, b_from (t_box x), b_to (t_box x))) (rl_trs l) =
   [(0, mkIdx 5 0 0, mkIdx 9 7 0); (1, mkIdx 5 7 0, mkIdx 9 13 0); (2, mkIdx 5 13 0, mkIdx 9 20 0)].
Proof.
  split; [exact ex_lo_frozen|]. split; [exact ex_lo_noempty|]. split; [reflexivity|]. eexists. vmsplit.
Qed.

(* ---------- C13: corner halo ---------- *)

Theorem C13_cornerhalo : forall q p l o lo depth,
  good_sorts q -> valid_dims (sp_dims (pp_space p)) -> 0 <= g_size (pp_group p) -> 0 <= depth ->
  pp_other p = Some o -> op_all o = Some lo -> FrozenList lo -> rl_space lo = op_space o -> NoEmpty lo ->
  run_partitioner q (cornerhalo_partitioner depth) p None = Ok l ->
  forall t i, Owns l t i <->
    InBox (sp_dims (pp_space p)) i (sp_box (pp_space p)) /\
    exists j, Owns lo t j /\ Near (sp_dims (pp_space p)) depth i j.
Proof. exact chalo_owns. Qed.

Example C13_case : exists l, run_partitioner exq (cornerhalo_partitioner 2) (mkParams (exsp 20) (exgroup 3 0) (Some ex_o)) None = Ok l /\
  map (fun x => (t_task x, i0 (b_from (t_box x)), i0 (b_to (t_box x)))) (rl_trs l) = [(0, 0, 9); (1, 5, 15); (2, 11, 20)].
Proof. eexists. vmsplit. Qed.

(* ---------- C14: halo ---------- *)

(* Nothing but own indexes and neighbours along an axis; own indexes always *)
Theorem C14_halo_sound : forall q p l o lo depth,
  good_sorts q -> valid_dims (sp_dims (pp_space p)) -> 0 <= g_size (pp_group p) -> 0 <= depth ->
  pp_other p = Some o -> op_all o = Some lo -> FrozenList lo -> rl_space lo = op_space o -> NoEmpty lo ->
  run_partitioner q (halo_partitioner depth) p None = Ok l ->
  forall t i,
    (Owns lo t i -> Owns l t i) /\
    (Owns l t i -> InBox (sp_dims (pp_space p)) i (sp_box (pp_space p)) /\
       exists j, Owns lo t j /\ NearAxis (sp_dims (pp_space p)) depth i j).
Proof. exact halo_sound. Qed.

(* All of them, if in every dimension each range either touches the border of the space or
   is more than depth away from it *)
Theorem C14_halo_complete_partial : forall q p l o lo depth,
  good_sorts q -> valid_dims (sp_dims (pp_space p)) -> 0 <= g_size (pp_group p) -> 0 <= depth ->
  pp_other p = Some o -> op_all o = Some lo -> FrozenList lo -> rl_space lo = op_space o -> NoEmpty lo ->
  (forall t n x, rl_tidrange lo t n = Ok (Some x) ->
     forall k, (k < sp_dims (pp_space p))%nat ->
       (idx_get (b_from (t_box x)) k = idx_get (b_from (sp_box (pp_space p))) k \/
        idx_get (b_from (t_box x)) k > idx_get (b_from (sp_box (pp_space p))) k + depth) /\
       (idx_get (b_to (t_box x)) k = idx_get (b_to (sp_box (pp_space p))) k \/
        idx_get (b_to (t_box x)) k < idx_get (b_to (sp_box (pp_space p))) k - depth)) ->
  run_partitioner q (halo_partitioner depth) p None = Ok l ->
  forall t i,
    InBox (sp_dims (pp_space p)) i (sp_box (pp_space p)) ->
    (exists j, Owns lo t j /\ NearAxis (sp_dims (pp_space p)) depth i j) -> Owns l t i.
Proof. exact halo_complete. Qed.

(* Without that condition the halo is lost: process 1 owns [1;10[ of [0;20[, depth is 1,
   but index 0 is not in its halo *)
Definition ex_calls2 : list acall :=
  [ACrange 0 (exrng 20 0 1) 1; ACrange 1 (exrng 20 1 10) 1; ACrange 2 (exrng 20 10 20) 1].
Definition ex_lo2 : rlist := Eval vm_compute in
  match run_partitioner exq (fixed ex_calls2 false) (mkParams (exsp 20) (exgroup 3 0) None) None with
  | Ok l => l | _ => rl_new (exsp 20) 3 end.
Lemma ex_lo2_run : run_partitioner exq (fixed ex_calls2 false) (mkParams (exsp 20) (exgroup 3 0) None) None = Ok ex_lo2.
Proof. vm_compute. reflexivity. Qed.

Theorem C14_halo_border_refuted : exists p l o lo,
  pp_other p = Some o /\ op_all o = Some lo /\ FrozenList lo /\ rl_space lo = op_space o /\ NoEmpty lo /\
  run_partitioner exq (halo_partitioner 1) p None = Ok l /\
  exists t i j, InBox 1 i (sp_box (pp_space p)) /\ Owns lo t j /\ NearAxis 1 1 i j /\ ~ Owns l t i.
Proof.
  set (o := mkOpart (exgroup 3 0) (exsp 20) (Some ex_lo2)).
  assert (F : FrozenList ex_lo2) by (refine (run_frozen _ _ _ _ _ exq_good _ _ ex_lo2_run); [left; reflexivity|simpl; lia]).
  set (p := mkParams (exsp 20) (exgroup 3 0) (Some o)).
  assert (R : run_partitioner exq (halo_partitioner 1) p None =
     Ok ltac:(let v := eval vm_compute in (run_partitioner exq (halo_partitioner 1) p None) in match v with Ok ?l => exact l end)) by (vm_compute; reflexivity).
  exists p. eexists. exists o, ex_lo2. split; [reflexivity|]. split; [reflexivity|]. split; [exact F|]. split; [reflexivity|].
  assert (E : rl_trs ex_lo2 = ltac:(let v := eval vm_compute in (rl_trs ex_lo2) in exact v)) by (vm_compute; reflexivity).
  split.
  { intros t n x H. apply (frozen_range_in _ _ _ _ F) in H. destruct H as [H _]. rewrite E in H. simpl in H.
    destruct H as [<-|[<-|[<-|[]]]]; [exists (mkIdx 0 0 0)|exists (mkIdx 7 0 0)|exists (mkIdx 14 0 0)]; unfold InBox; simpl; lia. }
  split; [exact R|]. exists 1, (mkIdx 0 0 0), (mkIdx 1 0 0).
  split; [unfold InBox; simpl; lia|]. split.
  { apply owns_iff_trs; auto. rewrite E. eexists. split; [right; left; reflexivity|]. split; [reflexivity|]. unfold InBox; simpl; lia. }
  split.
  { exists 0%nat. split; [lia|]. split; [simpl; lia|]. intros; lia. }
  apply run_frozen in R; [|exact exq_good|left; reflexivity|simpl; lia].
  intros O. apply owns_iff_trs in O; auto. destruct O as [x [Hx [Ht Hi]]]. simpl in Hx.
  repeat (destruct Hx as [<-|Hx]; [simpl in Ht; try discriminate; unfold InBox in Hi; simpl in Hi; lia|]). destruct Hx.
Qed.

(* The halo partitioner cannot be used on top of the block partitioner: ranges must have
   tags, and the block partitioner does not set them *)
Theorem C14_halo_on_block_refuted :
  run_partitioner exq (block_partitioner ieee (unweighted 1)) (mkParams (exsp 20) (exgroup 3 0) None) None = Ok ex_lo /\
  run_partitioner exq (halo_partitioner 2) (mkParams (exsp 20) (exgroup 3 0) (Some ex_o)) None = Abort.
Proof. split; vm_compute; reflexivity. Qed.

(* every range of the base partitioning meets the condition of the partial theorem *)
Definition ex_calls3 : list acall :=
  [ACrange 0 (exrng 20 0 7) 1; ACrange 1 (exrng 20 7 13) 1; ACrange 2 (exrng 20 13 20) 1].
Definition ex_lo3 : rlist := Eval vm_compute in
  match run_partitioner exq (fixed ex_calls3 false) (mkParams (exsp 20) (exgroup 3 0) None) None with
  | Ok l => l | _ => rl_new (exsp 20) 3 end.
Lemma ex_lo3_run : run_partitioner exq (fixed ex_calls3 false) (mkParams (exsp 20) (exgroup 3 0) None) None = Ok ex_lo3.
Proof. vm_compute. reflexivity. Qed.
Example C14_case : exists l, run_partitioner exq (halo_partitioner 2)
    (mkParams (exsp 20) (exgroup 3 0) (Some (mkOpart (exgroup 3 0) (exsp 20) (Some ex_lo3)))) None = Ok l /\
  (forall t n x, rl_tidrange ex_lo3 t n = Ok (Some x) ->
     forall k, (k < 1)%nat ->
       (idx_get (b_from (t_box x)) k = 0 \/ idx_get (b_from (t_box x)) k > 0 + 2) /\
       (idx_get (b_to (t_box x)) k = 20 \/ idx_get (b_to (t_box x)) k < 20 - 2)) /\
  rl_tidrangecount l 1 = Ok 3.
Proof.
  eexists. split; [vm_compute; reflexivity|]. split; [|vm_compute; reflexivity].
  assert (F : FrozenList ex_lo3) by (refine (run_frozen _ _ _ _ _ exq_good _ _ ex_lo3_run); [left; reflexivity|simpl; lia]).
  intros t n x H k Hk. apply (frozen_range_in _ _ _ _ F) in H. destruct H as [H _].
  simpl in H. destruct k; [|lia]. destruct H as [<-|[<-|[<-|[]]]]; simpl; lia.
Qed.

(* ---------- C15: reassign ---------- *)

Theorem C15_reassign : forall W (A : warith W) newg getIdxW q p o lo l,
  good_sorts q -> sp_dims (pp_space p) = 1%nat ->
  pp_other p = Some o -> op_all o = Some lo -> op_space o = pp_space p ->
  FrozenList lo -> rl_space lo = pp_space p -> rl_tids lo = g_size (pp_group p) ->
  ParentMaps (g_size (pp_group p)) (g_size newg) (g_toParent newg) (g_fromParent newg) -> 0 < g_size newg ->
  run_partitioner q (reassign_partitioner A newg getIdxW) p None = Ok l ->
  (forall t i, Remains newg t -> Owns lo t i -> Owns l t i) /\
  (forall t i, Owns l t i -> Remains newg t) /\
  (forall i, (exists t, Owns l t i) <-> (exists t, Owns lo t i)) /\
  (Disjoint lo -> Unique l).
Proof. exact @reassign_owns. Qed.

(* It always succeeds if the old partitioning covers the space *)
Theorem C15_reassign_total : forall W (A : warith W) newg getIdxW q p o lo,
  good_sorts q -> sp_dims (pp_space p) = 1%nat -> NonEmpty 1 (sp_box (pp_space p)) ->
  pp_other p = Some o -> op_group o = pp_group p -> op_all o = Some lo -> op_space o = pp_space p ->
  FrozenList lo -> rl_space lo = pp_space p -> rl_tids lo = g_size (pp_group p) -> NoEmpty lo ->
  (forall i, InBox 1 i (sp_box (pp_space p)) -> exists t, Owns lo t i) ->
  g_parent newg = Some (g_id (pp_group p)) ->
  ParentMaps (g_size (pp_group p)) (g_size newg) (g_toParent newg) (g_fromParent newg) -> 0 < g_size newg ->
  exists l, run_partitioner q (reassign_partitioner A newg getIdxW) p None = Ok l.
Proof. exact @reassign_total. Qed.

(* process 1 of 3 is removed *)
Definition ex_shrunk : group := mkGroup 2 2 0 (Some 1) [0; 2] [0; -1; 1] None [] [] [0; 2].
Lemma ex_shrunk_maps : ParentMaps 3 2 [0; 2] [0; -1; 1].
Proof.
  constructor; [reflexivity|reflexivity| |].
  - intros k t Hk E. assert (K : (Z.to_nat k < 2)%nat) by (apply (nth_error_Some [0; 2]); congruence).
    assert (k = 0 \/ k = 1) as [-> | ->] by lia; simpl in E; injection E as <-; simpl; split; auto; lia.
  - intros t k Ht E. assert (K : (Z.to_nat t < 3)%nat) by (apply (nth_error_Some [0; -1; 1]); congruence).
    assert (t = 0 \/ t = 1 \/ t = 2) as [-> | [-> | ->]] by lia; simpl in E; injection E as <-; auto; right; simpl; split; auto; lia.
Qed.
Example C15_case : exists l,
  run_partitioner exq (reassign_partitioner ieee ex_shrunk None) (mkParams (exsp 20) (exgroup 3 0) (Some ex_o)) None = Ok l /\
  map (fun x => (t_task x, i0 (b_from (t_box x)), i0 (b_to (t_box x)))) (rl_trs l) = [(0, 0, 7); (0, 7, 10); (2, 10, 13); (2, 13, 20)].
Proof. eexists. vmsplit. Qed.

(* ---------- C16: only covering partitionings are accepted ---------- *)

Theorem C16_accepted_covers : forall q pr p l,
  good_sorts q -> valid_dims (sp_dims (pp_space p)) -> 0 <= g_size (pp_group p) ->
  pr_nocover pr = false -> run_partitioner q pr p None = Ok l ->
  forall i, InBox (sp_dims (pp_space p)) i (sp_box (pp_space p)) ->
    exists t, 0 <= t < g_size (pp_group p) /\ Owns l t i.
Proof. exact accept_covering. Qed.

(* What a process owns is what the partitioner gave it, for any partitioner *)
Theorem C16_run_ownership : forall q pr p l,
  good_sorts q -> valid_dims (sp_dims (pp_space p)) -> 0 <= g_size (pp_group p) ->
  run_partitioner q pr p None = Ok l ->
  exists cs, pr_run pr p = Ok cs /\ rl_space l = pp_space p /\ rl_tids l = g_size (pp_group p) /\
    forall t i, Owns l t i <-> Given (sp_dims (pp_space p)) cs t i.
Proof.
  intros q pr p l H1 H2 H3 H4. destruct (run_partitioner_ok _ _ _ _ _ H1 H2 H3 H4) as [cs [l0 [R1 [_ [_ [_ [S [T [O _]]]]]]]]].
  exists cs. auto.
Qed.

(* In 1d every covering set of non-empty ranges inside the space is accepted *)
Theorem C16_accept_1d : forall q pr p cs,
  good_sorts q -> 0 <= g_size (pp_group p) ->
  (forall o, pp_other p = Some o -> op_group o = pp_group p) ->
  sp_dims (pp_space p) = 1%nat -> NonEmpty 1 (sp_box (pp_space p)) ->
  pr_run pr p = Ok cs ->
  (forall c, In c cs -> exists t r g, c = ACrange t r g /\ 0 <= t < g_size (pp_group p) /\
      r_space r = Some (pp_space p) /\ NonEmpty 1 (r_box r) /\ SubBox 1 (r_box r) (sp_box (pp_space p))) ->
  (forall i, InBox 1 i (sp_box (pp_space p)) -> exists t, Given 1 cs t i) ->
  exists l, run_partitioner q pr p None = Ok l.
Proof. exact accept_1d. Qed.

(* a run ends in a partitioning, a failed assertion or a panic, never in undefined
   behaviour *)
Theorem C16_run_defined : forall q pr p cs,
  good_sorts q -> valid_dims (sp_dims (pp_space p)) -> 0 <= g_size (pp_group p) ->
  pr_run pr p = Ok cs ->
  (sp_dims (pp_space p) = 1%nat \/ forall c, In c cs -> exists t r g, c = ACrange t r g) ->
  (exists l, run_partitioner q pr p None = Ok l) \/
  run_partitioner q pr p None = Abort \/ run_partitioner q pr p None = Panic.
Proof.
  intros q pr p cs H1 H2 H3 H4 H5.
  assert (D : defined (run_partitioner q pr p None)).
  { eapply run_defined; eauto. destruct H5 as [H5|H5]; auto. right. apply Forall_forall. intros c Hc.
    destruct (H5 c Hc) as [t [r [g ->]]]. reflexivity. }
  destruct (run_partitioner q pr p None); simpl in D; eauto; contradiction.
Qed.

Example C16_case :
  run_partitioner exq (fixed ex_calls2 false) (mkParams (exsp 20) (exgroup 3 0) None) None = Ok ex_lo2 /\
  run_partitioner exq (fixed (tl ex_calls2) false) (mkParams (exsp 20) (exgroup 3 0) None) None = Panic /\
  run_partitioner exq (fixed (ACrange 3 (exrng 20 0 1) 0 :: ex_calls2) false) (mkParams (exsp 20) (exgroup 3 0) None) None = Abort.
Proof. vmsplit. Qed.

(* ---------- C17: filtered runs ---------- *)

(* Keeping only own ranges. The filtered run may use other sort functions (another run of
   qsort). *)
Theorem C17_own_ranges : forall q q' pr p l sf,
  good_sorts q -> good_sorts q' -> valid_dims (sp_dims (pp_space p)) -> 0 <= g_size (pp_group p) ->
  0 <= g_myid (pp_group p) ->
  run_partitioner q pr p None = Ok l ->
  rangefilter_set_myfilter rangefilter_new (pp_group p) = Ok sf ->
  pr_merge pr = false \/ (exists i, Owns l (g_myid (pp_group p)) i) ->
  exists l', run_partitioner q' pr p (Some sf) = Ok l' /\
    (forall t i, Owns l' t i <-> t = g_myid (pp_group p) /\ Owns l t i) /\
    (pr_merge pr = false -> (forall cs, pr_run pr p = Ok cs -> Forall (fun c => exists t r g, c = ACrange t r g) cs) ->
      forall t b g, HasRange l' t b g <-> t = g_myid (pp_group p) /\ HasRange l t b g).
Proof.
  intros q q' pr p l sf H1 H2 H3 H4 H5 H6 H7 H8.
  destruct (my_filter q q' pr p l sf H1 H2 H3 H4 H5 H6 H7 H8) as [l' [K1 [K2 K3]]]. exists l'. split; auto. split; auto.
  intros Hm Hr. apply K3; auto. intros cs E. specialize (Hr cs E). eapply Forall_impl; [|exact Hr].
  intros c [t [r [g ->]]]. reflexivity.
Qed.

(* Keeping ranges which meet own ranges of one or two partitionings (given by pairs of
   list and process): nothing is added; every index in an own range keeps all its owners;
   a range is kept iff it meets an own range. *)
Theorem C17_intersecting_ranges : forall q q' pr p l (own : list (rlist * Z)),
  good_sorts q -> good_sorts q' -> sp_dims (pp_space p) = 1%nat -> 0 <= g_size (pp_group p) ->
  run_partitioner q pr p None = Ok l ->
  (length own <= 2)%nat ->
  (forall lo me, In (lo, me) own -> FrozenList lo /\ rl_space lo = pp_space p /\ 0 <= me < rl_tids lo /\ Ascending lo me) ->
  let mine i := exists lo me, In (lo, me) own /\ Owns lo me i in
  (exists i, mine i) ->
  exists sf, ofold (fun sf x => rangefilter_add_idxfilter sf (fst x) (snd x)) own rangefilter_new = Ok sf /\
    (pr_merge pr = false \/ (exists t i, mine i /\ Owns l t i) ->
      exists l', run_partitioner q' pr p (Some sf) = Ok l' /\
      (forall t i, Owns l' t i -> Owns l t i) /\
      (forall t i, mine i -> Owns l t i -> Owns l' t i) /\
      (pr_merge pr = false -> (forall cs, pr_run pr p = Ok cs -> Forall (fun c => exists t r g, c = ACrange t r g) cs) ->
        forall t b g,
          (HasRange l' t b g -> HasRange l t b g) /\
          (HasRange l t b g -> (exists i, mine i /\ InBox 1 i b) -> HasRange l' t b g) /\
          (HasRange l' t b g -> NonEmpty 1 b -> (forall lo me, In (lo, me) own -> NoEmpty lo) ->
             exists i, mine i /\ InBox 1 i b))).
Proof.
  intros q q' pr p l own H1 H2 H3 H4 H5 H6 H7 mine H8.
  destruct (idx_filter q q' pr p l own H1 H2 H3 H4 H5 H6 H7 H8) as [sf [E K]]. exists sf. split; auto.
  intros Hm. destruct (K Hm) as [l' [K1 [K2 [K3 K4]]]]. exists l'. split; auto. split; auto. split; auto.
  intros Hm2 Hr. apply K4; auto. intros cs Ecs. specialize (Hr cs Ecs). eapply Forall_impl; [|exact Hr].
  intros c [t [r [g ->]]]. reflexivity.
Qed.

(* When are own ranges enumerated in ascending order? Disjoint, non-empty, one tag *)
Theorem C17_ascending : forall s tids h l qg qs l' me, sp_dims s = 1%nat -> 0 <= tids ->
  is_qsort trgen_cmp qg -> run_appends s tids h = Ok l -> rl_freeze qg qs l false = Ok l' ->
  NoEmpty l' -> Disjoint l' ->
  (forall t n m x y, rl_tidrange l' t n = Ok (Some x) -> rl_tidrange l' t m = Ok (Some y) -> t_tag x = t_tag y) ->
  Ascending l' me.
Proof. exact tag_ascending. Qed.

(* The conditions are needed. A process without own ranges and a merging partitioner *)
Theorem C17_own_merge_abort_refuted : exists cs p sf l,
  rangefilter_set_myfilter rangefilter_new (pp_group p) = Ok sf /\
  run_partitioner exq (fixed cs true) p None = Ok l /\
  run_partitioner exq (fixed cs true) p (Some sf) = Abort.
Proof.
  exists [ACrange 0 (exrng 20 0 20) 0], (mkParams (exsp 20) (exgroup 3 1) None). eexists. eexists. vmsplit.
Qed.

(* No own ranges at all: the filter function stays NULL *)
Theorem C17_no_own_ranges_refuted : exists p lo l sf, FrozenList lo /\
  run_partitioner exq all_partitioner p None = Ok l /\
  rangefilter_add_idxfilter rangefilter_new lo (g_myid (pp_group p)) = Ok sf /\
  run_partitioner exq all_partitioner p (Some sf) = UB.
Proof.
  set (p0 := mkParams (exsp 20) (exgroup 3 1) None).
  assert (R : run_partitioner exq master_partitioner p0 None =
     Ok ltac:(let v := eval vm_compute in (run_partitioner exq master_partitioner p0 None) in match v with Ok ?l => exact l end)) by (vm_compute; reflexivity).
  exists p0. eexists. eexists. eexists.
  split; [refine (run_frozen _ _ _ _ _ exq_good _ _ R); [left; reflexivity|simpl; lia]|].
  vmsplit.
Qed.

(* Own ranges with different tags, not ascending: a range meeting them is dropped *)
Definition ex_tagged : list acall :=
  [ACrange 0 (exrng 20 10 20) 1; ACrange 0 (exrng 20 0 5) 2; ACrange 1 (exrng 20 5 10) 1].
Theorem C17_tags_refuted : exists p lo l l' sf, FrozenList lo /\
  rangefilter_add_idxfilter rangefilter_new lo 0 = Ok sf /\
  run_partitioner exq (fixed [ACrange 0 (exrng 20 0 12) 1; ACrange 1 (exrng 20 12 20) 1] false) p None = Ok l /\
  run_partitioner exq (fixed [ACrange 0 (exrng 20 0 12) 1; ACrange 1 (exrng 20 12 20) 1] false) p (Some sf) = Ok l' /\
  exists i, Owns lo 0 i /\ Owns l 1 i /\ ~ Owns l' 1 i.
Proof.
  set (p0 := mkParams (exsp 20) (exgroup 2 0) None).
  assert (R : run_partitioner exq (fixed ex_tagged false) p0 None =
     Ok ltac:(let v := eval vm_compute in (run_partitioner exq (fixed ex_tagged false) p0 None) in match v with Ok ?l => exact l end)) by (vm_compute; reflexivity).
  match type of R with _ = Ok ?l => set (lo := l) in R end.
  assert (F : FrozenList lo) by (refine (run_frozen _ _ _ _ _ exq_good _ _ R); [left; reflexivity|simpl; lia]).
  set (sf := match rangefilter_add_idxfilter rangefilter_new lo 0 with Ok s => s | _ => rangefilter_new end).
  set (pr := fixed [ACrange 0 (exrng 20 0 12) 1; ACrange 1 (exrng 20 12 20) 1] false).
  assert (R1 : run_partitioner exq pr p0 None =
     Ok ltac:(let v := eval vm_compute in (run_partitioner exq pr p0 None) in match v with Ok ?l => exact l end)) by (vm_compute; reflexivity).
  assert (R2 : run_partitioner exq pr p0 (Some sf) =
     Ok ltac:(let v := eval vm_compute in (run_partitioner exq pr p0 (Some sf)) in match v with Ok ?l => exact l end)) by (vm_compute; reflexivity).
  exists p0, lo. eexists. eexists. exists sf. split; [exact F|]. split; [vm_compute; reflexivity|]. split; [exact R1|]. split; [exact R2|].
  exists (mkIdx 15 0 0). pose proof R1 as F1. apply run_frozen in F1; [|exact exq_good|left; reflexivity|simpl; lia].
  pose proof R2 as F2. apply run_frozen in F2; [|exact exq_good|left; reflexivity|simpl; lia].
  split; [|split].
  - apply owns_iff_trs; auto. eexists. split; [left; reflexivity|]. split; [reflexivity|]. unfold InBox; simpl; lia.
  - apply owns_iff_trs; auto. eexists. split; [right; left; reflexivity|]. split; [reflexivity|]. unfold InBox; simpl; lia.
  - intros O. apply owns_iff_trs in O; auto. destruct O as [x [Hx [Ht Hi]]]. simpl in Hx.
    repeat (destruct Hx as [<-|Hx]; [simpl in Ht; try discriminate; unfold InBox in Hi; simpl in Hi; lia|]). destruct Hx.
Qed.

(* process 1 of 3 keeps its own range; then filter with own ranges [0;7[ of process 0 and
   [7;13[ of process 1 *)
Example C17_case : exists sf sf2 l1 l2,
  rangefilter_set_myfilter rangefilter_new (exgroup 3 1) = Ok sf /\
  run_partitioner exq (fixed ex_calls2 false) (mkParams (exsp 20) (exgroup 3 1) None) (Some sf) = Ok l1 /\
  map (fun x => (t_task x, i0 (b_from (t_box x)), i0 (b_to (t_box x)))) (rl_trs l1) = [(1, 1, 10)] /\
  ofold (fun sf x => rangefilter_add_idxfilter sf (fst x) (snd x)) [(ex_lo, 0); (ex_lo2, 0)] rangefilter_new = Ok sf2 /\
  run_partitioner exq (fixed ex_calls2 false) (mkParams (exsp 20) (exgroup 3 1) None) (Some sf2) = Ok l2 /\
  map (fun x => (t_task x, i0 (b_from (t_box x)), i0 (b_to (t_box x)))) (rl_trs l2) = [(0, 0, 1); (1, 1, 10)].
Proof. eexists _, _, _, _. vmsplit. Qed.

(* ---------- C48: grid partitioner ---------- *)

(* For every way to compute borders which starts and ends at the borders of the space and
   does not decrease: one block per process, every index in exactly one *)
Theorem C48_grid_partial : forall xb yb zb (gb : space -> nat -> Z -> Z) q p l,
  good_sorts q -> valid_dims (sp_dims (pp_space p)) -> 0 <= g_size (pp_group p) ->
  (forall d, (d < 3)%nat -> let n := match d with O => xb | 1%nat => yb | _ => zb end in
     0 < n /\ gb (pp_space p) d 0 = idx_get (b_from (sp_box (pp_space p))) d /\
     gb (pp_space p) d n = idx_get (b_to (sp_box (pp_space p))) d /\
     forall k, 0 <= k < n -> gb (pp_space p) d k <= gb (pp_space p) d (k + 1)) ->
  run_partitioner q (grid_partitioner xb yb zb gb) p None = Ok l ->
  (forall i, InBox 3 i (sp_box (pp_space p)) -> exists t, 0 <= t < xb * yb * zb /\ Owns l t i) /\ Unique l /\
  (forall t i j, Owns l t i -> Owns l t j -> exists b, InBox 3 i b /\ InBox 3 j b /\ forall k, InBox 3 k b -> Owns l t k).
Proof.
  intros xb yb zb gb q p l H1 H2 H3 H4 H5.
  apply (grid_owns xb yb zb gb q p l H1 H2 H3); auto.
  - exact (H4 0%nat ltac:(lia)).
  - exact (H4 1%nat ltac:(lia)).
  - exact (H4 2%nat ltac:(lia)).
Qed.

(* The doubles the code uses do not always do that: 61 indexes in 7 blocks. The last index
   is lost and the program ends. *)
Theorem C48_grid_rounding_refuted : exists p, sp_dims (pp_space p) = 3%nat /\
  sp_box (pp_space p) = mkBox (mkIdx 0 0 0) (mkIdx 61 1 1) /\ g_size (pp_group p) = 7 /\
  grid_borders (grid_nb 7 1 1) (pp_space p) 0 7 = 60 /\
  run_partitioner exq (grid_ieee 7 1 1) p None = Panic.
Proof. exists (mkParams (exsp3 61 1 1) (exgroup 7 0) None). vmsplit. Qed.

Example C48_case : exists l, run_partitioner exq (grid_ieee 3 2 1) (mkParams (exsp3 10 5 4) (exgroup 6 0) None) None = Ok l /\
  map (grid_borders (grid_nb 3 2 1) (exsp3 10 5 4) 0) [0; 1; 2; 3] = [0; 3; 6; 10] /\
  map (grid_borders (grid_nb 3 2 1) (exsp3 10 5 4) 1) [0; 1; 2] = [0; 2; 5].
Proof. eexists. vmsplit. Qed.

Print Assumptions C10_block_structure.
Print Assumptions C10_block_ownership.
Print Assumptions C10_block_1d_accepted.
Print Assumptions C10_block_exact.
Print Assumptions C10_block_exact_balanced.
Print Assumptions C10_block_abort_refuted.
Print Assumptions C10_zero_cycles_refuted.
Print Assumptions C11_bisection.
Print Assumptions C11_bisection_1d_total.
Print Assumptions C11_bisection_abort_refuted.
Print Assumptions C11_bisection_empty_refuted.
Print Assumptions C12_all.
Print Assumptions C12_master.
Print Assumptions C12_all_master_total.
Print Assumptions C12_copy.
Print Assumptions C13_cornerhalo.
Print Assumptions C14_halo_sound.
Print Assumptions C14_halo_complete_partial.
Print Assumptions C14_halo_border_refuted.
Print Assumptions C14_halo_on_block_refuted.
Print Assumptions C15_reassign.
Print Assumptions C15_reassign_total.
Print Assumptions C16_accepted_covers.
Print Assumptions C16_run_ownership.
Print Assumptions C16_accept_1d.
Print Assumptions C16_run_defined.
Print Assumptions C17_own_ranges.
Print Assumptions C17_intersecting_ranges.
Print Assumptions C17_ascending.
Print Assumptions C17_own_merge_abort_refuted.
Print Assumptions C17_no_own_ranges_refuted.
Print Assumptions C17_tags_refuted.
Print Assumptions C48_grid_partial.
Print Assumptions C48_grid_rounding_refuted.
