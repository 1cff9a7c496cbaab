(* Properties C37 (switching), C45, C46, C50: memory of data containers *)
From Coq Require Import ZArith List Bool Lia Sorted Permutation ZifyBool ZifyNat.
From Verif Require Import Base ListFacts Model_Space Model_RangeList Model_Mem Model_Layout Model_Partitioner Model_Transition Model_Data
  Spec_Space Spec_RangeList Spec_Partitioner Spec_Type Spec_Layout Spec_Data
  Proof_Space Proof_RangeList Proof_RangeList2 Proof_RangeList5 Prop_RangeList Proof_Partitioner Proof_Partitioner2 Prop_Partitioner Proof_Layout Proof_Layout2 Proof_Layout4 Proof_Layout6 Prop_Layout
  Proof_Data Proof_Data2 Proof_Data3 Proof_Data4 Proof_Data5 Proof_Data6.
Import ListNotations.
Open Scope Z_scope.

(* ---------- own ranges ---------- *)

(* The lists made by partitioners (without tag -1, see C07, and empty ranges) are of the kind
   the theorems below are about. *)
Theorem C37_own_ranges : forall s tids h l qg qs m l' me n,
  valid_dims (sp_dims s) -> 0 <= tids -> is_qsort trgen_cmp qg -> run_appends s tids h = Ok l -> rl_freeze qg qs l m = Ok l' ->
  (forall a, In a h -> a_tag a <> -1) -> NoEmpty l' -> 0 <= me < tids ->
  HasCount (sp_dims s) (sp_box s) n -> n < two64 -> OwnRanges s l' me.
Proof.
  intros s tids h l qg qs m l' me n Hd Ht Hq R F HT NE Hme Hn Hn2.
  assert (FL : FrozenList l') by (eapply FL_gen; eauto).
  destruct (map_numbers_gen s tids h l qg qs m l' Ht Hq R F HT me Hme) as (A & B & _).
  assert (E : rl_space l' = s /\ rl_tids l' = tids).
  { pose proof (freeze_ok_cond _ _ _ _ _ _ _ _ R Hq F) as Hc.
    destruct (freeze_after_appends _ _ _ _ _ qs _ R Hq Ht Hc) as [l2 [G1 [G2 [G3 [G4 _]]]]]. split; congruence. }
  destruct E as [E1 E2]. split; auto.
  - lia.
  - intros k x Hx. rewrite <- E1. eapply NE; eauto.
  - exists n. auto.
Qed.

(* ---------- C37: a switch keeps values in place or provides new memory ---------- *)

(* For a container in any state a history of switches can lead to, and any new own ranges:
   the new mappings are calculated, checked for reuse of old memory and allocated without
   running into an assertion. Afterwards
   - there is one map for each map number, for the smallest range around the own ranges with it,
     with an area of memory large enough; no two areas overlap
   - each new map either takes over the memory of an old map, and all of its indexes are found at
     their old addresses, or gets a new block of exactly the size needed. *)
Theorem C37_switch : forall d s l me, valid_dims (sp_dims (dc_space d)) -> 0 < dc_es d -> dc_map0 d = None -> Reached d s ->
  OwnRanges (dc_space d) l me ->
  exists tl, prepare_maps d l me = Ok tl /\ Covers l me tl /\
  forall addr, FreshFor (dc_es d) addr tl (ds_live s) ->
  exists t1 fl' t, check_map_reuse (dc_es d) tl (ds_act s) = Ok (t1, fl') /\ allocate_mappings (dc_es d) addr t1 = Ok t /\
    GoodList (dc_space d) (dc_es d) t /\ Covers l me t /\
    forall k m, aread (ml_maps t) k = Ok m ->
      (exists f j, ds_act s = Some f /\ SamePlace (dc_space d) (dc_es d) t f k j) \/
      (exists lm, Backed (dc_space d) (dc_es d) t k m lm (r_box (m_req m)) (m_count m) /\ m_start m = addr k /\ m_cap m = m_count m * dc_es d).
Proof.
  intros d s l me Hd Hes H0 HR HO. destruct (prepare_ok d (dc_space d) l me H0 HO) as (tl & P1 & P2 & P3).
  exists tl. split; auto. split; auto. intros addr HF.
  assert (HI := reached_inv d Hd Hes H0 s HR).
  assert (HO' : OldOk (dc_space d) (dc_es d) (ds_act s)).
  { unfold Inv, OldOk in *. destruct (ds_act s) as [f|]; auto. destruct HI as [[? _]|[? _]]; auto. }
  assert (HF' := fresh_blocks d s addr tl HI HF).
  destruct (switch_ok (dc_space d) (dc_es d) Hd Hes tl (ds_act s) addr P2 HO' HF') as (t1 & fl' & t & S1 & S2 & S3 & S4 & S5 & S6 & S7 & S8).
  exists t1, fl', t. conjs; auto.
  - eapply covers_req; eauto.
  - intros k m Hk. destruct (S6 k m Hk) as [(f & f' & j & g & fj & E1 & _ & _ & _ & E5 & _)|(lm & E1 & E2 & _ & E3 & _)]; [left|right]; eauto.
Qed.

(* In any history of switches: the active mappings have no memory yet (initial partitioning set,
   no switch so far), or all are backed by memory, in areas which do not overlap. *)
Theorem C37_history : forall d s ml, valid_dims (sp_dims (dc_space d)) -> 0 < dc_es d -> dc_map0 d = None -> Reached d s ->
  ds_act s = Some ml -> GoodList (dc_space d) (dc_es d) ml \/ NoMemory ml.
Proof.
  intros d s ml Hd Hes H0 HR Ha. assert (HI := reached_inv d Hd Hes H0 s HR). unfold Inv in HI. rewrite Ha in HI.
  destruct HI as [[HR' _]|[HG _]]; auto. right. split; [apply HR'|]. intros m Hm. destruct (rawlist_in (dc_space d) ml m HR' Hm) as (k & b & ->). auto.
Qed.

(* ---------- C50: memory of a container is released once, and only when not used any more ---------- *)

(* nothing is leaked by switching: the blocks allocated and not yet freed are those of the active mappings *)
Theorem C50_no_leak : forall d s, valid_dims (sp_dims (dc_space d)) -> 0 < dc_es d -> dc_map0 d = None -> Reached d s ->
  match ds_act s with
  | None => ds_live s = []
  | Some ml => (NoMemory ml /\ ds_live s = []) \/ Permutation (ds_live s) (blocks ml)
  end.
Proof.
  intros d s Hd Hes H0 HR. assert (HI := reached_inv d Hd Hes H0 s HR). unfold Inv in HI. destruct (ds_act s) as [ml|]; auto.
  destruct HI as [[HR' HL]|(_ & _ & HP)]; auto. left. split; auto. split; [apply HR'|].
  intros m Hm. destruct (rawlist_in (dc_space d) ml m HR' Hm) as (k & b & ->). auto.
Qed.

(* the addresses a switch gives to free are of blocks in use, each at most once, and none of
   them is used by the new mappings *)
Theorem C50_frees : forall d s l me gen ini exec addr o tl t m m' fr,
  valid_dims (sp_dims (dc_space d)) -> 0 < dc_es d -> dc_map0 d = None -> Reached d s ->
  OwnRanges (dc_space d) l me -> prepare_maps d l me = Ok tl -> FreshFor (dc_es d) addr tl (ds_live s) ->
  do_transition gen d ini exec addr o (ds_act s) tl m = Ok (t, m', fr) ->
  NoDup fr /\ (forall a, In a fr -> In a (map fst (ds_live s))) /\ (forall x, In x (ml_maps t) -> ~ In (m_start x) fr).
Proof.
  intros d s l me gen ini exec addr o tl t m m' fr Hd Hes H0 HR HO HP HF HT. assert (HI := reached_inv d Hd Hes H0 s HR).
  destruct (step_ok d Hd Hes H0 s l me gen ini exec addr o tl t m m' fr HI HO HP HF HT) as (_ & _ & A & B).
  conjs; auto. eapply step_kept; eauto.
Qed.

(* ---------- C46: addresses ---------- *)

Theorem C46_map_1d : forall sp es ml k m, sp_dims sp = 1%nat -> 0 < es -> GoodList sp es ml -> aread (ml_maps ml) k = Ok m ->
  exists base count lm B N, get_map_1d (Some ml) k = Ok (base, count) /\ Backed sp es ml k m lm B N /\
    let b := r_box (m_req m) in HasCount 1 b count /\
    forall i, InBox 1 i b -> AddrOf lm i (base + (i0 i - i0 (b_from b)) * es).
Proof.
  intros sp es ml k m Ed Hes HG Hk. assert (Hd : valid_dims (sp_dims sp)) by (rewrite Ed; left; auto).
  destruct (map_facts sp es ml Hd HG k m Hk) as (ly & B & F1 & F2 & F3 & F4 & F5 & F6 & F7 & F8 & F9 & F10 & F11 & F12).
  exists (m_base m), (m_count m). do 3 eexists. split; [|split; [exact F6|]].
  - unfold get_map_1d. rewrite (get_map_ok sp es ml Hd HG k m Hk). reflexivity.
  - split; [rewrite <- Ed; apply (bk_count _ _ _ _ _ _ _ _ F6)|]. intros i Hi. rewrite <- Ed in Hi.
    rewrite F10. replace (m_start m + boff (sp_dims sp) B (b_from (r_box (m_req m))) * es + (i0 i - i0 (b_from (r_box (m_req m)))) * es)
      with (m_start m + boff (sp_dims sp) B i * es) by (rewrite Ed; unfold boff; simpl; ring).
    exists (boff (sp_dims sp) B i). split; auto. cbn. apply offset_ok; auto.
Qed.

Theorem C46_map_2d : forall sp es ml k m, sp_dims sp = 2%nat -> 0 < es -> GoodList sp es ml -> aread (ml_maps ml) k = Ok m ->
  exists base ysize ystride xsize lm B N, get_map_2d (Some ml) k = Ok (base, ysize, ystride, xsize) /\ Backed sp es ml k m lm B N /\
    let b := r_box (m_req m) in HasCount 2 b (ysize * xsize) /\
    (forall i, InBox 2 i b <-> i0 (b_from b) <= i0 i < i0 (b_from b) + xsize /\ i1 (b_from b) <= i1 i < i1 (b_from b) + ysize) /\
    forall i, InBox 2 i b -> AddrOf lm i (base + ((i1 i - i1 (b_from b)) * ystride + (i0 i - i0 (b_from b))) * es).
Proof.
  intros sp es ml k m Ed Hes HG Hk. assert (Hd : valid_dims (sp_dims sp)) by (rewrite Ed; right; left; auto).
  destruct (map_facts sp es ml Hd HG k m Hk) as (ly & B & F1 & F2 & F3 & F4 & F5 & F6 & F7 & F8 & F9 & F10 & F11 & F12).
  do 7 eexists. split; [|split; [exact F6|]].
  - unfold get_map_2d. rewrite (get_map_ok sp es ml Hd HG k m Hk). cbn [obind]. unfold lay_of. rewrite F1, F3, F2.
    rewrite (stride1 sp Hd ly k B F4 F5) by lia. cbn [obind]. reflexivity.
  - split; [|split].
    + rewrite <- Ed. assert (C := bk_count _ _ _ _ _ _ _ _ F6). rewrite F9 in C. rewrite Ed in C at 2. unfold vol, w0, w1 in C. simpl in C.
      match goal with |- HasCount _ _ ?x => match type of C with HasCount _ _ ?y => replace x with y by ring end end. exact C.
    + intros i. unfold InBox. split; [intros (A & A1 & _); specialize (A1 ltac:(lia)); lia|]. intros [A A1]. conjs; intros; lia.
    + intros i Hi. rewrite <- Ed in Hi. rewrite F10.
      replace (m_start m + boff (sp_dims sp) B (b_from (r_box (m_req m))) * es + ((i1 i - i1 (b_from (r_box (m_req m)))) * w0 B + (i0 i - i0 (b_from (r_box (m_req m))))) * es)
      with (m_start m + boff (sp_dims sp) B i * es) by (rewrite Ed; unfold boff; simpl; ring).
      exists (boff (sp_dims sp) B i). split; auto. cbn. apply offset_ok; auto.
Qed.

Theorem C46_map_3d : forall sp es ml k m, sp_dims sp = 3%nat -> 0 < es -> GoodList sp es ml -> aread (ml_maps ml) k = Ok m ->
  exists base zsize zstride ysize ystride xsize lm B N, get_map_3d (Some ml) k = Ok (base, zsize, zstride, ysize, ystride, xsize) /\ Backed sp es ml k m lm B N /\
    let b := r_box (m_req m) in HasCount 3 b (zsize * ysize * xsize) /\
    (forall i, InBox 3 i b <-> i0 (b_from b) <= i0 i < i0 (b_from b) + xsize /\ i1 (b_from b) <= i1 i < i1 (b_from b) + ysize /\
                               i2 (b_from b) <= i2 i < i2 (b_from b) + zsize) /\
    forall i, InBox 3 i b -> AddrOf lm i (base + ((i2 i - i2 (b_from b)) * zstride + (i1 i - i1 (b_from b)) * ystride + (i0 i - i0 (b_from b))) * es).
Proof.
  intros sp es ml k m Ed Hes HG Hk. assert (Hd : valid_dims (sp_dims sp)) by (rewrite Ed; right; right; auto).
  destruct (map_facts sp es ml Hd HG k m Hk) as (ly & B & F1 & F2 & F3 & F4 & F5 & F6 & F7 & F8 & F9 & F10 & F11 & F12).
  do 9 eexists. split; [|split; [exact F6|]].
  - unfold get_map_3d. rewrite (get_map_ok sp es ml Hd HG k m Hk). cbn [obind]. unfold lay_of. rewrite F1, F3, F2.
    rewrite (stride1 sp Hd ly k B F4 F5) by lia. cbn [obind]. rewrite (stride2 sp Hd ly k B F4 F5) by lia. cbn [obind]. reflexivity.
  - split; [|split].
    + rewrite <- Ed. assert (C := bk_count _ _ _ _ _ _ _ _ F6). rewrite F9 in C. rewrite Ed in C at 2. unfold vol, w0, w1, w2 in C. simpl in C.
      match goal with |- HasCount _ _ ?x => match type of C with HasCount _ _ ?y => replace x with y by ring end end. exact C.
    + intros i. unfold InBox. split; [intros (A & A1 & A2); specialize (A1 ltac:(lia)); specialize (A2 ltac:(lia)); lia|]. intros (A & A1 & A2). conjs; intros; lia.
    + intros i Hi. rewrite <- Ed in Hi. rewrite F10.
      match goal with |- AddrOf _ _ ?x => replace x with (m_start m + boff (sp_dims sp) B i * es) by (rewrite Ed; unfold boff; simpl; ring) end.
      exists (boff (sp_dims sp) B i). split; auto. cbn. apply offset_ok; auto.
Qed.

(* elements of different indexes or maps do not overlap, and are in the area of their map *)
Theorem C46_distinct : forall sp es ml k j m m' lm lm' B N B' N' i i' a a', valid_dims (sp_dims sp) -> 0 < es -> GoodList sp es ml ->
  Backed sp es ml k m lm B N -> Backed sp es ml j m' lm' B' N' ->
  InBox (sp_dims sp) i (r_box (m_req m)) -> InBox (sp_dims sp) i' (r_box (m_req m')) -> (k <> j \/ ~ SameIndex (sp_dims sp) i i') ->
  AddrOf lm i a -> AddrOf lm' i' a' -> Away a es a' es /\ m_start m <= a /\ a + es <= m_start m + m_cap m.
Proof. intros. eapply distinct; eauto. Qed.

(* other map numbers: NULL, size 0 *)
Theorem C46_no_map : forall es ml k, (forall m, aread (ml_maps ml) k <> Ok m) ->
  get_map_1d (Some ml) k = Ok (0, 0) /\ forall i, get_map_addr es (Some ml) k i = Ok 0.
Proof.
  intros es ml k H. assert (E := get_map_none (mkSpace 0 1 zbox) ml k H). unfold get_map_1d, get_map_addr. rewrite E. auto.
Qed.

(* laik_get_map_addr gives the address of the element for maps with their own memory... *)
Theorem C46_addr : forall sp es ml k m lm B N i, valid_dims (sp_dims sp) -> 0 < es -> GoodList sp es ml -> Backed sp es ml k m lm B N ->
  SameIndex (sp_dims sp) (b_from (r_box (m_req m))) (b_from B) -> InBox (sp_dims sp) i (r_box (m_req m)) ->
  exists a, get_map_addr es (Some ml) k i = Ok a /\ AddrOf lm i a.
Proof.
  intros sp es ml k m lm B N i Hd Hes HG BK HS Hi. assert (Hk := bk_at _ _ _ _ _ _ _ _ BK).
  destruct (map_facts sp es ml Hd HG k m Hk) as (ly & B' & F1 & F2 & F3 & F4 & F5 & F6 & F7 & F8 & F9 & F10 & F11 & F12).
  destruct (backed_section sp es Hd ml k m lm B N ly BK F1 F2 F3) as (Q1 & Q2 & Q3 & Q4 & Q5).
  assert (B' = B) by (apply (section_unique ly k); auto). subst B'.
  assert (Elm : lm = mkLmap ly k (m_start m) es (m_req m)).
  { destruct BK as [_ L _ _ _ _ _ _ _]. unfold lmap_of, lay_of in L. rewrite F1, F3, F2 in L. congruence. }
  assert (Hoff := offset_ok sp ly k B i Hd F4 F5 (F7 _ Hi)).
  exists (m_base m + boff (sp_dims sp) B i * es). split.
  - unfold get_map_addr. rewrite (get_map_ok sp es ml Hd HG k m Hk). cbn [obind]. unfold lay_of. rewrite F1, F3, F2, Hoff. reflexivity.
  - subst lm. exists (boff (sp_dims sp) B i). split; auto. cbn.
    assert (E : boff (sp_dims sp) B (b_from (r_box (m_req m))) = 0).
    { destruct HS as (S0 & S1 & S2). unfold boff. rewrite S0. destruct (Nat.ltb 1 (sp_dims sp)) eqn:L1; [|lia]. rewrite S1 by lia.
      destruct (Nat.ltb 2 (sp_dims sp)) eqn:L2; [|lia]. rewrite S2 by lia. lia. }
    rewrite F10, E. lia.
Qed.

(* ---------- C45: global and local indexes ---------- *)

(* A global index is found in the first map whose range contains it, with the position in this
   map; not found, if there is none. *)
Theorem C45_global2local : forall sp es d ml gi, dc_space d = sp -> sp_dims sp = 1%nat -> 0 < es -> GoodList sp es ml ->
  (exists n li m, global2maplocal_1d d (Some ml) gi = Ok (Some (n, li)) /\ aread (ml_maps ml) n = Ok m /\
     InBox 1 (mkIdx gi 0 0) (r_box (m_req m)) /\ li = gi - i0 (b_from (r_box (m_req m))) /\
     (forall j m', j < n -> aread (ml_maps ml) j = Ok m' -> ~ InBox 1 (mkIdx gi 0 0) (r_box (m_req m'))) /\
     maplocal2global_1d d (Some ml) n li = Ok gi) \/
  (global2maplocal_1d d (Some ml) gi = Ok None /\ forall n m, aread (ml_maps ml) n = Ok m -> ~ InBox 1 (mkIdx gi 0 0) (r_box (m_req m))).
Proof.
  intros sp es d ml gi Es Ed Hes HG. assert (Hd : valid_dims (sp_dims sp)) by (rewrite Ed; left; auto).
  assert (HB : forall b, InBox 1 (mkIdx gi 0 0) b <-> i0 (b_from b) <= gi < i0 (b_to b)) by (intros b; unfold InBox; simpl; intuition lia).
  unfold global2maplocal_1d, maplocal2global_1d. rewrite Es, Ed. cbn [Nat.eqb cassert].
  destruct (g2l_loop gi 0 (ml_maps ml)) as [[n li]|] eqn:E.
  - left. destruct (g2l_some gi _ _ _ _ E) as (k & m & A & B & C & D & F). assert (n = Z.of_nat k) by lia. subst n. apply aread_nat in B.
    destruct (map_facts sp es ml Hd HG _ m B) as (_ & _ & _ & _ & _ & _ & _ & _ & _ & _ & F9 & _).
    exists (Z.of_nat k), li, m. conjs; auto.
    + now apply HB.
    + intros j m' Hj Hm. rewrite HB. apply aread_iff in Hm. destruct Hm as [Hm1 Hm]. apply (F (Z.to_nat j)); auto. lia.
    + rewrite B. cbn [obind]. rewrite F9, Ed. unfold vol, w0. simpl.
      match goal with |- context [li <? ?x] => replace (li <? x) with true by lia end. cbn [cassert]. f_equal. lia.
  - right. split; auto. intros n m Hm. rewrite HB. apply (g2l_none gi _ _ E). apply aread_iff in Hm. eapply nth_error_In, Hm.
Qed.

(* every own index is found *)
Theorem C45_own_found : forall sp es d ml l me gi, dc_space d = sp -> sp_dims sp = 1%nat -> 0 < es -> GoodList sp es ml -> rl_space l = sp -> Covers l me ml ->
  Owns l me (mkIdx gi 0 0) -> exists n li, global2maplocal_1d d (Some ml) gi = Ok (Some (n, li)).
Proof.
  intros sp es d ml l me gi Es Ed Hes HG El HC (n & x & Hx & Hi). destruct (cv_in _ _ _ HC n x Hx) as (m & Hm & Hs). rewrite El, Ed in *.
  destruct (C45_global2local sp es d ml gi Es Ed Hes HG) as [(k & li & _ & E & _)|[_ C]]; [eauto|]. exfalso. apply (C _ _ Hm). apply Hs. exact Hi.
Qed.

(* Translating the position in a map to the global index: the index is in the range of the map
   at this position; positions from the end of the map are rejected. *)
Theorem C45_local2global : forall sp es d ml n m li, dc_space d = sp -> sp_dims sp = 1%nat -> 0 < es -> GoodList sp es ml -> aread (ml_maps ml) n = Ok m -> 0 <= li ->
  (forall gi, maplocal2global_1d d (Some ml) n li = Ok gi <-> InBox 1 (mkIdx gi 0 0) (r_box (m_req m)) /\ li = gi - i0 (b_from (r_box (m_req m)))) /\
  (m_count m <= li -> maplocal2global_1d d (Some ml) n li = Abort) /\
  (length (ml_maps ml) = 1%nat -> local2global_1d d (Some ml) li = maplocal2global_1d d (Some ml) 0 li).
Proof.
  intros sp es d ml n m li Es Ed Hes HG Hm Hli. assert (Hd : valid_dims (sp_dims sp)) by (rewrite Ed; left; auto).
  destruct (map_facts sp es ml Hd HG _ m Hm) as (_ & _ & _ & _ & _ & _ & _ & _ & _ & _ & F9 & _).
  rewrite Ed in F9. unfold vol, w0 in F9. simpl in F9.
  unfold maplocal2global_1d, local2global_1d. rewrite Es, Ed. cbn [Nat.eqb cassert]. rewrite Hm. cbn [obind]. conjs.
  - intros gi. unfold InBox. simpl. destruct (li <? m_count m) eqn:E; cbn [cassert]; split.
    + intros H. injection H as <-. conjs; intros; lia.
    + intros [(A & _) B]. f_equal. lia.
    + discriminate.
    + intros [(A & _) B]. lia.
  - intros H. replace (li <? m_count m) with false by lia. reflexivity.
  - intros ->. reflexivity.
Qed.

(* ---------- examples ---------- *)

(* process 0 of 2: first [0,12) and [14,18) (tag 1, 2), then [2,8) and [10,20), then [3,7) *)
Definition xd : dcont := mkDc 8 (exsp 20) None.
Definition xrun (h : list appcall) : rlist :=
  match run_appends (exsp 20) 2 h with
  | Ok l => match rl_freeze (isort trgen_cmp) (isort tss1d_cmp) l false with Ok r => r | _ => rl_new (exsp 0) 0 end
  | _ => rl_new (exsp 0) 0 end.
Definition xh1 : list appcall := [mkApp 0 (exrng 20 0 12) 1; mkApp 0 (exrng 20 14 18) 2; mkApp 1 (exrng 20 12 14) 1].
Definition xh2 : list appcall := [mkApp 0 (exrng 20 2 8) 1; mkApp 0 (exrng 20 10 20) 2; mkApp 1 (exrng 20 0 20) 1].
Definition xh3 : list appcall := [mkApp 0 (exrng 20 3 7) 1].
Definition xl1 : rlist := Eval vm_compute in xrun xh1.
Definition xl2 : rlist := Eval vm_compute in xrun xh2.
Definition xl3 : rlist := Eval vm_compute in xrun xh3.

Lemma xcount : HasCount 1 (sp_box (exsp 20)) 20.
Proof.
  assert (G := vol_count 1 (sp_box (exsp 20)) (or_introl eq_refl)). apply G. exists (mkIdx 0 0 0). unfold InBox; simpl. conjs; intros; lia.
Qed.
Lemma xown h l : l = xrun h -> (exists l0, run_appends (exsp 20) 2 h = Ok l0 /\ rl_freeze (isort trgen_cmp) (isort tss1d_cmp) l0 false = Ok l) ->
  forallb (fun a => negb (a_tag a =? -1)) h = true ->
  forallb (fun x => i0 (b_from (t_box x)) <? i0 (b_to (t_box x))) (rl_trs l) = true -> rl_space l = exsp 20 -> OwnRanges (exsp 20) l 0.
Proof.
  intros E (l0 & A & B) HT HN Es.
  assert (FL : FrozenList l) by (refine (FL_gen (exsp 20) 2 h l0 (isort trgen_cmp) (isort tss1d_cmp) false l _ _ isort_trgen A B); [left; reflexivity|lia]).
  apply (C37_own_ranges (exsp 20) 2 h l0 (isort trgen_cmp) (isort tss1d_cmp) false l 0 20); auto; try lia.
  - left; reflexivity.
  - exact isort_trgen.
  - intros a Ha. rewrite forallb_forall in HT. specialize (HT a Ha). lia.
  - intros t n x Hx. apply (frozen_range_in _ _ _ _ FL) in Hx. destruct Hx as [Hx _]. rewrite forallb_forall in HN. specialize (HN x Hx).
    rewrite Es. exists (b_from (t_box x)). unfold InBox; simpl. conjs; intros; lia.
  - exact xcount.
  - vm_compute; reflexivity.
Qed.
Lemma xown1 : OwnRanges (exsp 20) xl1 0.
Proof. apply (xown xh1); try (vm_compute; reflexivity). eexists. split; vm_compute; reflexivity. Qed.
Lemma xown2 : OwnRanges (exsp 20) xl2 0.
Proof. apply (xown xh2); try (vm_compute; reflexivity). eexists. split; vm_compute; reflexivity. Qed.
Lemma xown3 : OwnRanges (exsp 20) xl3 0.
Proof. apply (xown xh3); try (vm_compute; reflexivity). eexists. split; vm_compute; reflexivity. Qed.

Definition xini : mem -> Z -> Z -> redop -> outcome mem := fun m _ _ _ => Ok m.
Definition xexec : mlist -> option mlist -> mem -> outcome mem := fun _ _ m => Ok m.
Definition xprep (l : rlist) : mlist := match prepare_maps xd l 0 with Ok t => t | _ => mkMl None None [] end.
Definition xstep (s : dstate) (l : rlist) (addr : Z -> Z) : dstate * list Z :=
  match do_transition false xd xini xexec addr tops_empty (ds_act s) (xprep l) (fun _ => 0) with
  | Ok (t, _, fr) => (mkDs (Some t) (filter (fun b => negb (freed fr b)) (ds_live s) ++ alloc_calls 8 addr (xprep l) (ds_act s)), fr)
  | _ => (s, []) end.

Definition awayb (a b : Z * Z) : bool := (fst a + snd a <=? fst b) || (fst b + snd b <=? fst a).
Definition xsize (es : Z) (ml : mlist) (k : nat) : Z := match nth_error (ml_maps ml) k with Some m => m_count m * es | None => 0 end.
Lemma fresh_ok es addr ml used : let ks := seq 0 (length (ml_maps ml)) in
  forallb (fun k => (0 <? addr (Z.of_nat k)) && forallb (awayb (addr (Z.of_nat k), xsize es ml k)) used &&
     forallb (fun j => Nat.eqb j k || awayb (addr (Z.of_nat k), xsize es ml k) (addr (Z.of_nat j), xsize es ml j)) ks) ks = true ->
  FreshFor es addr ml used.
Proof.
  intros ks H k m Hk. rewrite forallb_forall in H.
  assert (G : forall k m, aread (ml_maps ml) k = Ok m -> exists n, k = Z.of_nat n /\ In n ks /\ xsize es ml n = m_count m * es).
  { intros k' m' Hk'. apply aread_iff in Hk'. destruct Hk' as [A B]. exists (Z.to_nat k'). split; [lia|]. split.
    - apply in_seq. assert (Z.to_nat k' < length (ml_maps ml))%nat by (apply nth_error_Some; congruence). lia.
    - unfold xsize. now rewrite B. }
  assert (AW : forall a b, awayb a b = true -> AwayB a b) by (intros a b; unfold awayb, AwayB, Away; lia).
  destruct (G k m Hk) as (n & -> & N1 & N2). specialize (H n N1). apply andb_prop in H. destruct H as [H H2]. apply andb_prop in H. destruct H as [H H1].
  rewrite N2 in *. conjs.
  - lia.
  - intros b Hb. rewrite forallb_forall in H1. auto.
  - intros j m' Hj Hm. destruct (G j m' Hm) as (n' & -> & N3 & N4). rewrite forallb_forall in H2. specialize (H2 n' N3). apply orb_prop in H2.
    destruct H2 as [H2|H2]; [lia|]. rewrite <- N4. auto.
Qed.
Definition xa1 : Z -> Z := fun k => if k =? 0 then 1000 else 2000.
Definition xa2 : Z -> Z := fun k => if k =? 0 then 3000 else 4000.
Definition xa3 : Z -> Z := fun k => 5000.
Definition xs1 : dstate := Eval vm_compute in fst (xstep (mkDs None []) xl1 xa1).
Definition xs2 : dstate := Eval vm_compute in fst (xstep xs1 xl2 xa2).
Definition xs3 : dstate := Eval vm_compute in fst (xstep xs2 xl3 xa3).
Definition xact (s : dstate) : mlist := match ds_act s with Some t => t | None => mkMl None None [] end.
Lemma xreach1 : Reached xd xs1.
Proof.
  apply (Reached_switch xd (mkDs None []) xl1 0 false xini xexec xa1 tops_empty (xprep xl1) (xact xs1) (fun _ => 0) (fun _ => 0) []);
    [constructor|exact xown1|vm_compute; reflexivity|apply fresh_ok; vm_compute; reflexivity|vm_compute; reflexivity].
Qed.
Lemma xreach2 : Reached xd xs2.
Proof.
  apply (Reached_switch xd xs1 xl2 0 false xini xexec xa2 tops_empty (xprep xl2) (xact xs2) (fun _ => 0) (fun _ => 0) [2000]);
    [exact xreach1|exact xown2|vm_compute; reflexivity|apply fresh_ok; vm_compute; reflexivity|vm_compute; reflexivity].
Qed.
Lemma xreach3 : Reached xd xs3.
Proof.
  apply (Reached_switch xd xs2 xl3 0 false xini xexec xa3 tops_empty (xprep xl3) (xact xs3) (fun _ => 0) (fun _ => 0) [4000]);
    [exact xreach2|exact xown3|vm_compute; reflexivity|apply fresh_ok; vm_compute; reflexivity|vm_compute; reflexivity].
Qed.

(* three switches: the memory of the first map is taken over twice, each time with the index at
   its address; the second map cannot be reused and is freed *)
Example C37_switch_case : OwnRanges (exsp 20) xl1 0 /\ OwnRanges (exsp 20) xl2 0 /\ OwnRanges (exsp 20) xl3 0 /\ Reached xd xs3 /\
  map (fun m => (m_start m, m_base m)) (ml_maps (xact xs1)) = [(1000, 1000); (2000, 2000)] /\
  map (fun m => (m_start m, m_base m)) (ml_maps (xact xs2)) = [(1000, 1016); (4000, 4000)] /\
  map (fun m => (m_start m, m_base m)) (ml_maps (xact xs3)) = [(1000, 1024)] /\
  ds_live xs3 = [(1000, 96)] /\ snd (xstep xs1 xl2 xa2) = [2000].
Proof. split; [exact xown1|]. split; [exact xown2|]. split; [exact xown3|]. split; [exact xreach3|]. vmsplit. Qed.
Example C50_case : Reached xd xs2 /\ FreshFor 8 xa3 (xprep xl3) (ds_live xs2) /\ snd (xstep xs2 xl3 xa3) = [4000] /\
  Permutation (ds_live xs2) (blocks (xact xs2)) /\ blocks (xact xs2) = [(1000, 96); (4000, 80)].
Proof.
  split; [exact xreach2|]. split; [apply fresh_ok; vm_compute; reflexivity|]. split; [vm_compute; reflexivity|]. split; [|vm_compute; reflexivity].
  destruct (C50_no_leak xd xs2 (or_introl eq_refl) eq_refl eq_refl xreach2) as [[C _]|H]; [|exact H].
  exfalso. destruct C as [_ C]. destruct (C _ (or_introl eq_refl)) as [C1 _]. discriminate C1.
Qed.
Lemma xgood2 : GoodList (exsp 20) 8 (xact xs2).
Proof.
  destruct (C37_history xd xs2 (xact xs2) (or_introl eq_refl) eq_refl eq_refl xreach2 eq_refl) as [H|[_ C]]; auto.
  exfalso. destruct (C _ (or_introl eq_refl)) as [C1 _]. discriminate C1.
Qed.
Example C46_case : GoodList (exsp 20) 8 (xact xs2) /\ get_map_1d (Some (xact xs2)) 0 = Ok (1016, 6) /\ get_map_1d (Some (xact xs2)) 1 = Ok (4000, 10) /\
  get_map_addr 8 (Some (xact xs2)) 1 (mkIdx 12 0 0) = Ok 4016.
Proof. split; [exact xgood2|]. vmsplit. Qed.
Example C45_case : GoodList (exsp 20) 8 (xact xs2) /\ global2maplocal_1d xd (Some (xact xs2)) 12 = Ok (Some (1, 2)) /\
  global2maplocal_1d xd (Some (xact xs2)) 9 = Ok None /\ maplocal2global_1d xd (Some (xact xs2)) 1 2 = Ok 12.
Proof. split; [exact xgood2|]. vmsplit. Qed.

(* ---------- findings ---------- *)

(* laik_get_map_addr is wrong for a map which took over the memory of a larger one: the base
   address already is the one of the first index of the map, but the offset is relative to the
   start of the old area. *)
Theorem C46_addr_refuted : exists sp es ml k m lm B N i a b, GoodList sp es ml /\ Backed sp es ml k m lm B N /\
  InBox (sp_dims sp) i (r_box (m_req m)) /\ AddrOf lm i a /\ get_map_addr es (Some ml) k i = Ok b /\ a <> b.
Proof.
  assert (Hm : exists m, aread (ml_maps (xact xs2)) 0 = Ok m) by (eexists; vm_compute; reflexivity). destruct Hm as [m Hm].
  destruct (map_facts (exsp 20) 8 (xact xs2) (or_introl eq_refl) xgood2 0 m Hm) as (ly & B & F1 & F2 & F3 & F4 & F5 & F6 & F7 & F8 & F9 & F10 & F11 & F12).
  exists (exsp 20), 8, (xact xs2), 0, m. do 3 eexists. exists (mkIdx 3 0 0), 1024, 1040.
  vm_compute in Hm. injection Hm as <-. vm_compute in F3. injection F3 as <-.
  split; [exact xgood2|]. split; [exact F6|]. split; [unfold InBox; cbn; conjs; intros; lia|]. split; [eexists; split; vm_compute; reflexivity|].
  split; [vm_compute; reflexivity|lia].
Qed.

(* laik_free does not release the memory of the container *)
Theorem C50_free_refuted : exists d s, Reached d s /\ ds_live s <> [] /\ free_data (ds_act s) = [].
Proof. exists xd, xs3. split; [exact xreach3|]. split; [vm_compute; discriminate|reflexivity]. Qed.

(* Memory provided by the user for map 0 is used for the new map 0 even if still in use by the
   old one with other indexes: process 0 had [0,10), gets [5,15); the values received for
   [10,15) overwrite the values of [5,10) before these are copied. *)
Definition xdp : dcont := mkDc 1 (exsp 20) (Some (1000, 10)).
Definition xlp1 : rlist := Eval vm_compute in xrun [mkApp 0 (exrng 20 0 10) 1].
Definition xlp2 : rlist := Eval vm_compute in xrun [mkApp 0 (exrng 20 5 15) 1].
Definition xpl (l : rlist) : mlist := match prepare_maps xdp l 0 with Ok t => t | _ => mkMl None None [] end.
Definition xops : tops := mkTops [mkLocalT (mkBox (mkIdx 5 0 0) (mkIdx 10 0 0)) 0 0 0 0] [] []
  [mkRecvT (mkBox (mkIdx 10 0 0) (mkIdx 15 0 0)) 0 0 1] [] [].
Definition xlm (ml : mlist) : lmap := match ml_maps ml with m :: _ => match lmap_of 1 ml m with Ok l => l | _ => mkLmap (mkLex 0 0 []) 0 0 0 no_range end | [] => mkLmap (mkLex 0 0 []) 0 0 0 no_range end.
(* the backend: values received for [10,15) go to the addresses of these indexes *)
Definition xrecv (vals : list Z) : mlist -> option mlist -> mem -> outcome mem :=
  fun t _ m => do o <- offset_lex (lm_layout (xlm t)) 0 (mkIdx 10 0 0); Ok (mwrite m (lm_start (xlm t) + o) vals).
Theorem C37_provided_memory_refuted : exists t m' fr a b,
  do_transition false xdp xini (xrecv [70; 71; 72; 73; 74]) (fun _ => 5000) xops (Some (xpl xlp1)) (xpl xlp2) (fun a => a - 1000) = Ok (t, m', fr) /\
  AddrOf (xlm (xpl xlp1)) (mkIdx 6 0 0) a /\ AddrOf (xlm t) (mkIdx 6 0 0) b /\ a - 1000 = 6 /\ m' b = 71.
Proof. do 5 eexists. split; [vm_compute; reflexivity|]. split; [eexists; split; vm_compute; reflexivity|]. split; [eexists; split; vm_compute; reflexivity|]. split; vm_compute; reflexivity. Qed.

Print Assumptions C37_own_ranges.
Print Assumptions C37_switch.
Print Assumptions C37_history.
Print Assumptions C37_provided_memory_refuted.
Print Assumptions C45_global2local.
Print Assumptions C45_own_found.
Print Assumptions C45_local2global.
Print Assumptions C46_map_1d.
Print Assumptions C46_map_2d.
Print Assumptions C46_map_3d.
Print Assumptions C46_distinct.
Print Assumptions C46_no_map.
Print Assumptions C46_addr.
Print Assumptions C46_addr_refuted.
Print Assumptions C50_no_leak.
Print Assumptions C50_frees.
Print Assumptions C50_free_refuted.
