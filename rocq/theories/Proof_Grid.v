(* C48: grid partitioner *)
From Coq Require Import ZArith List Bool Lia Permutation Sorted ZifyBool ZifyNat.
From Verif Require Import Base ListFacts Model_Space Spec_Space Proof_Space Model_RangeList Spec_RangeList
  Proof_RangeList Proof_RangeList2 Proof_RangeList3 Proof_RangeList4 Proof_RangeList5 Proof_Cover
  Model_Partitioner Spec_Partitioner Proof_Partitioner Proof_Partitioner2 Proof_Partitioner4 Proof_Block.
Import ListNotations.
Open Scope Z_scope.

Section G.
  Variables (xb yb zb : Z) (gb : nat -> Z -> Z) (sp : space) (gsize : Z).
  Notation nb d := (match d with O => xb | 1%nat => yb | _ => zb end).
  Definition good_borders (d : nat) (n : Z) : Prop :=
    0 < n /\ gb d 0 = idx_get (b_from (sp_box sp)) d /\ gb d n = idx_get (b_to (sp_box sp)) d /\
    forall k, 0 <= k < n -> gb d k <= gb d (k + 1).
  Hypothesis Hx : good_borders 0 xb.
  Hypothesis Hy : good_borders 1 yb.
  Hypothesis Hz : good_borders 2 zb.

  Lemma blocks_consec d n : good_borders d n ->
    Consec (idx_get (b_from (sp_box sp)) d) (idx_get (b_to (sp_box sp)) d) (grid_blocks gb sp d n).
  Proof.
    intros [Hn [H0 [H1 Hm]]].
    assert (Mono : forall k, (0 <= k <= n) -> gb d k <= gb d n).
    { assert (M : forall j, Z.of_nat j <= n -> gb d (n - Z.of_nat j) <= gb d n).
      { induction j as [|j IH]; intros L; [rewrite Z.sub_0_r; lia|].
        pose proof (Hm (n - Z.of_nat (S j)) ltac:(lia)) as K.
        replace (n - Z.of_nat (S j) + 1) with (n - Z.of_nat j) in K by lia. specialize (IH ltac:(lia)). lia. }
      intros k Hk. specialize (M (Z.to_nat (n - k)) ltac:(lia)). rewrite Z2Nat.id in M by lia.
      replace (n - (n - k)) with k in M by lia. auto. }
    assert (G : forall m, (Z.of_nat m <= n) -> Consec (gb d 0) (gb d (Z.of_nat m)) (grid_blocks gb sp d (Z.of_nat m))).
    { induction m as [|m IH]; intros L; [reflexivity|].
      unfold grid_blocks, zcount in *. rewrite Nat2Z.id in *. rewrite seq_S, map_app, filter_app, map_app. simpl.
      specialize (IH ltac:(lia)). pose proof (Hm (Z.of_nat m) ltac:(lia)). pose proof (Mono (Z.of_nat m + 1) ltac:(lia)).
      replace (Z.of_nat (S m)) with (Z.of_nat m + 1) by lia.
      destruct (gb d (Z.of_nat m) =? gb d (Z.of_nat m + 1)) eqn:E; simpl.
      - rewrite app_nil_r. replace (gb d (Z.of_nat m + 1)) with (gb d (Z.of_nat m)) by lia. exact IH.
      - eapply Consec_app; [exact IH|]. simpl. replace (gb d (Z.of_nat m + 1) >? idx_get (b_to (sp_box sp)) d) with false by lia.
        split; auto. split; [lia|auto]. }
    rewrite <- H0, <- H1. specialize (G (Z.to_nat n) ltac:(lia)). rewrite Z2Nat.id in G by lia. exact G.
  Qed.

  Lemma blocks_len d n : (length (grid_blocks gb sp d n) <= Z.to_nat n)%nat.
  Proof.
    unfold grid_blocks. rewrite map_length. unfold zcount.
    etransitivity; [apply filter_length_le'|]. rewrite map_length, seq_length. lia.
  Qed.

  Definition bx3 (x y z : Z * Z) : box := mkBox (mkIdx (fst x) (fst y) (fst z)) (mkIdx (snd x) (snd y) (snd z)).

  Lemma boxes_in b : In b (grid_boxes xb yb zb gb sp) <-> exists x y z, In x (grid_blocks gb sp 0 xb) /\
    In y (grid_blocks gb sp 1 yb) /\ In z (grid_blocks gb sp 2 zb) /\ b = bx3 x y z.
  Proof.
    unfold grid_boxes. rewrite in_flat_map. split.
    - intros [z [Kz H]]. apply in_flat_map in H. destruct H as [y [Ky H]]. apply in_map_iff in H. destruct H as [x [<- Kx]].
      exists x, y, z. auto.
    - intros [x [y [z [Kx [Ky [Kz ->]]]]]]. exists z. split; auto. apply in_flat_map. exists y. split; auto.
      apply in_map_iff. exists x. auto.
  Qed.

  Lemma Consec_unique : forall l a b f t f' t' v, Consec a b l -> In (f, t) l -> In (f', t') l ->
    f <= v < t -> f' <= v < t' -> (f, t) = (f', t').
  Proof.
    induction l as [|[g u] l IH]; simpl; intros a b f t f' t' v C H H' V V'; [contradiction|].
    destruct C as [-> [C1 C2]]. destruct H as [H|H], H' as [H'|H'].
    - congruence.
    - injection H as <- <-. apply (Consec_in _ _ _ _ _ C2) in H'. lia.
    - injection H' as <- <-. apply (Consec_in _ _ _ _ _ C2) in H. lia.
    - eapply IH; eauto.
  Qed.

  Lemma Consec_nodup : forall l a b, Consec a b l -> NoDup l.
  Proof.
    induction l as [|[f t] l IH]; simpl; intros a b C; [constructor|]. destruct C as [-> [C1 C2]].
    constructor; [|eapply IH; eauto]. intros K. apply (Consec_in _ _ _ _ _ C2) in K. lia.
  Qed.

  Lemma boxes_nodup : NoDup (grid_boxes xb yb zb gb sp).
  Proof.
    unfold grid_boxes.
    pose proof (Consec_nodup _ _ _ (blocks_consec _ _ Hx)) as Nx.
    pose proof (Consec_nodup _ _ _ (blocks_consec _ _ Hy)) as Ny.
    pose proof (Consec_nodup _ _ _ (blocks_consec _ _ Hz)) as Nz.
    induction Nz as [|z lz Hz' Nz' IH]; simpl; [constructor|].
    apply NoDup_app_intro; auto.
    - clear IH. induction Ny as [|y ly Hy' Ny' IH]; simpl; [constructor|]. apply NoDup_app_intro; auto.
      + apply FinFun.Injective_map_NoDup; auto. intros [a b] [c d] E. simpl in E. congruence.
      + intros b Hb Hb'. apply in_map_iff in Hb. destruct Hb as [x [<- _]]. apply in_flat_map in Hb'.
        destruct Hb' as [y' [Ky Hb']]. apply in_map_iff in Hb'. destruct Hb' as [x' [E _]].
        injection E as E1 E2 E3 E4. apply Hy'. replace y with y'; auto. destruct y, y'; simpl in *; congruence.
    - intros b Hb Hb'. apply in_flat_map in Hb, Hb'. destruct Hb as [y [_ Hb]]. destruct Hb' as [z' [Kz Hb']].
      apply in_flat_map in Hb'. destruct Hb' as [y' [_ Hb']]. apply in_map_iff in Hb, Hb'.
      destruct Hb as [x [<- _]]. destruct Hb' as [x' [E _]]. injection E as E1 E2 E3 E4 E5 E6.
      apply Hz'. replace z with z'; auto. destruct z, z'; simpl in *; congruence.
  Qed.

  Lemma boxes_len : Z.of_nat (length (grid_boxes xb yb zb gb sp)) <= xb * yb * zb.
  Proof.
    unfold grid_boxes. pose proof (blocks_len 0 xb) as L0. pose proof (blocks_len 1 yb) as L1. pose proof (blocks_len 2 zb) as L2.
    destruct Hx as [X _], Hy as [Y _], Hz as [Z' _].
    rewrite (flat_map_length_const _ (length (grid_blocks gb sp 1 yb) * length (grid_blocks gb sp 0 xb))).
    - assert (A : (length (grid_blocks gb sp 1 yb) * length (grid_blocks gb sp 0 xb) <= Z.to_nat yb * Z.to_nat xb)%nat) by (apply Nat.mul_le_mono; auto).
      assert (B : (length (grid_blocks gb sp 2 zb) * (length (grid_blocks gb sp 1 yb) * length (grid_blocks gb sp 0 xb)) <= Z.to_nat zb * (Z.to_nat yb * Z.to_nat xb))%nat) by (apply Nat.mul_le_mono; auto).
      apply Nat2Z.inj_le in B. rewrite !Nat2Z.inj_mul in *. rewrite !Z2Nat.id in B by lia. lia.
    - intros z. apply flat_map_length_const. intros y. apply map_length.
  Qed.

  Lemma grid_calls cs : grid_run xb yb zb gb sp gsize = Ok cs ->
    sp_dims sp = 3%nat /\ xb * yb * zb <= gsize /\
    (forall t i, Given 3 cs t i <-> exists b, nth_error (grid_boxes xb yb zb gb sp) (Z.to_nat t) = Some b /\ 0 <= t /\ InBox 3 i b).
  Proof.
    unfold grid_run. intros H. apply cassert_ok in H. destruct H as [H1 H]. apply cassert_ok in H. destruct H as [H2 H].
    injection H as <-. split; [apply Nat.eqb_eq; auto|]. split; [lia|].
    pose proof boxes_len as BL.
    intros t i. unfold Given. split.
    - intros [c [Hc G]]. apply in_map_iff in Hc. destruct Hc as [[k b] [<- Hc]]. simpl in G. destruct G as [<- G].
      apply In_nth_error in Hc. destruct Hc as [n Hc]. 
      rewrite nth_error_combine in Hc. rewrite nth_error_seq in Hc. destruct (n <? Z.to_nat gsize)%nat; [|discriminate].
      destruct (nth_error (grid_boxes xb yb zb gb sp) n) as [b'|] eqn:E; [|discriminate]. injection Hc as <- <-.
      exists b'. rewrite Nat2Z.id. simpl. split; auto. split; [lia|auto].
    - intros [b [K1 [K2 K3]]]. exists (ACrange t (mkRange (Some sp) b) 1). split; [|simpl; auto].
      apply in_map_iff. exists (Z.to_nat t, b). simpl. split; [rewrite Z2Nat.id by auto; auto|].
      assert (L : (Z.to_nat t < length (grid_boxes xb yb zb gb sp))%nat) by (apply nth_error_Some; congruence).
      apply (nth_error_In _ (Z.to_nat t)). rewrite nth_error_combine, nth_error_seq.
      replace (Z.to_nat t <? Z.to_nat gsize)%nat with true by lia. rewrite K1. simpl. reflexivity.
  Qed.
End G.

Lemma grid_owns xb yb zb gb q p l :
  good_sorts q -> valid_dims (sp_dims (pp_space p)) -> 0 <= g_size (pp_group p) ->
  good_borders (gb (pp_space p)) (pp_space p) 0 xb -> good_borders (gb (pp_space p)) (pp_space p) 1 yb ->
  good_borders (gb (pp_space p)) (pp_space p) 2 zb ->
  run_partitioner q (grid_partitioner xb yb zb gb) p None = Ok l ->
  (forall i, InBox 3 i (sp_box (pp_space p)) -> exists t, 0 <= t < xb * yb * zb /\ Owns l t i) /\ Unique l /\
  (forall t i j, Owns l t i -> Owns l t j -> exists b, InBox 3 i b /\ InBox 3 j b /\ forall k, InBox 3 k b -> Owns l t k).
Proof.
  intros Hq Hv Hg Hx Hy Hz H.
  destruct (run_partitioner_ok _ _ _ _ _ Hq Hv Hg H) as [cs [l0 [R1 [_ [_ [_ [_ [_ [O _]]]]]]]]].
  simpl in R1, O. destruct (grid_calls _ _ _ _ _ _ Hx Hy Hz _ R1) as [D3 [Hb G]]. rewrite D3 in O.
  pose proof (boxes_len _ _ _ _ _ Hx Hy Hz) as BL.
  split; [|split].
  - intros i Hi. unfold InBox in Hi. destruct Hi as [I0 [I1 I2]]. specialize (I1 ltac:(lia)). specialize (I2 ltac:(lia)).
    destruct (Consec_cover _ _ _ _ (blocks_consec _ _ _ _ Hx) I0) as [fx [tx [X1 X2]]].
    destruct (Consec_cover _ _ _ _ (blocks_consec _ _ _ _ Hy) I1) as [fy [ty [Y1 Y2]]].
    destruct (Consec_cover _ _ _ _ (blocks_consec _ _ _ _ Hz) I2) as [fz [tz [Z1 Z2]]].
    assert (K : In (bx3 (fx, tx) (fy, ty) (fz, tz)) (grid_boxes xb yb zb (gb (pp_space p)) (pp_space p))) by (apply boxes_in; eexists _, _, _; eauto).
    apply In_nth_error in K. destruct K as [n K]. exists (Z.of_nat n).
    assert (n < length (grid_boxes xb yb zb (gb (pp_space p)) (pp_space p)))%nat by (apply nth_error_Some; congruence).
    split; [lia|]. apply O, G. exists (bx3 (fx, tx) (fy, ty) (fz, tz)). rewrite Nat2Z.id. split; auto. split; [lia|]. unfold InBox; simpl; lia.
  - intros t u i K1 K2. apply O, G in K1. apply O, G in K2. destruct K1 as [b [N1 [T1 B1]]], K2 as [b' [N2 [T2 B2]]].
    assert (b = b').
    { pose proof (nth_error_In _ _ N1) as M1. pose proof (nth_error_In _ _ N2) as M2. apply boxes_in in M1, M2.
      destruct M1 as [[x x'] [[y y'] [[z z'] [X [Y [Z ->]]]]]], M2 as [[c c'] [[d d'] [[e e'] [X2 [Y2 [Z2 ->]]]]]].
      unfold InBox in B1, B2; simpl in *. destruct B1 as [B1 [B3 B5]], B2 as [B2 [B4 B6]].
      specialize (B3 ltac:(lia)). specialize (B4 ltac:(lia)). specialize (B5 ltac:(lia)). specialize (B6 ltac:(lia)).
      pose proof (Consec_unique _ _ _ _ _ _ _ _ (blocks_consec _ _ _ _ Hx) X X2 B1 B2) as E1.
      pose proof (Consec_unique _ _ _ _ _ _ _ _ (blocks_consec _ _ _ _ Hy) Y Y2 B3 B4) as E2.
      pose proof (Consec_unique _ _ _ _ _ _ _ _ (blocks_consec _ _ _ _ Hz) Z Z2 B5 B6) as E3.
      congruence. }
    subst b'. pose proof (boxes_nodup _ _ _ _ _ Hx Hy Hz) as ND. rewrite NoDup_nth_error in ND.
    assert (Z.to_nat t = Z.to_nat u); [|lia]. apply ND; [apply nth_error_Some; congruence|congruence].
  - intros t i j K1 K2. apply O, G in K1. apply O, G in K2. destruct K1 as [b [N1 [T1 B1]]], K2 as [b' [N2 [T2 B2]]].
    rewrite N1 in N2. injection N2 as <-. exists b. split; auto. split; auto. intros k Kb. apply O, G. exists b. auto.
Qed.
