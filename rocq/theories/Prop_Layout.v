(* Properties C34-C37 *)
From Coq Require Import ZArith List Bool Lia Sorted.
From Verif Require Import Base Model_Space Model_RangeList Model_Mem Model_Layout Spec_Space Spec_Type Spec_Layout
  Proof_Space Proof_RangeList5 Proof_Layout Proof_Layout2 Proof_Layout3 Proof_Layout4 Proof_Layout5 Proof_Layout6 Proof_Layout7 Proof_Layout8.
Import ListNotations.
Open Scope Z_scope.

(* ---------- C34: the lexicographic layout is a dense bijection ---------- *)

(* a layout can be created for every list of non-empty ranges; its sections are the given
   ranges in order, its size is the sum of their sizes *)
Theorem C34_create : forall sp ranges, valid_dims (sp_dims sp) -> ranges <> [] -> Forall (GoodRange sp) ranges ->
  exists l, new_layout_lex ranges = Ok l /\
    (forall k r, nth_error ranges k = Some r -> SectionBox l (Z.of_nat k) (r_box r)) /\
    exists ns, Forall2 (fun r n => HasCount (sp_dims sp) (r_box r) n) ranges ns /\ lx_count l = fold_right Z.add 0 ns.
Proof.
  intros sp ranges Hd Hn HF. destruct (new_layout_ok sp ranges Hd HF Hn) as [l [E [W M]]].
  exists l. split; auto. destruct W as [W1 [W2 [W3 W4]]]. split.
  - intros k r Hk. split; [lia|]. rewrite Nat2Z.id. rewrite <- M in Hk. rewrite nth_error_map in Hk.
    destruct (nth_error (lx_e l) k) as [e|]; [|discriminate]. exists e. simpl in Hk. split; auto. congruence.
  - exists (map le_count (lx_e l)). rewrite <- M. split.
    + clear - W2 Hd. induction W2; simpl; constructor; auto. destruct H as (_ & H1 & _ & H2 & _). rewrite H2. now apply vol_count.
    + rewrite W4. clear. generalize (map le_count (lx_e l)). intros ns.
      induction ns; simpl; auto. rewrite fold_add_acc, IHns. lia.
Qed.

(* a layout with an empty range cannot be created *)
Theorem C34_create_empty : forall sp ranges r, valid_dims (sp_dims sp) ->
  Forall (fun r => r_space r = Some sp /\ Ordered (sp_dims sp) (r_box r)) ranges ->
  In r ranges -> ~ NonEmpty (sp_dims sp) (r_box r) -> new_layout_lex ranges = Abort.
Proof.
  intros sp ranges r Hd HF Hin Hn.
  assert (G : new_lexentries (sp_dims sp) ranges = Abort).
  { induction HF as [|x l [H1 H2] HF IH]; [destruct Hin|].
    assert (Ex : new_lexentry (sp_dims sp) x = Abort \/ exists e, new_lexentry (sp_dims sp) x = Ok e).
    { unfold new_lexentry, range_size. rewrite H1. destruct (box_size_total _ _ Hd H2) as [n ->]. simpl.
      unfold cassert. destruct (_ <? _); auto. destruct (if Nat.ltb 1 _ then _ else _); auto. destruct (if Nat.ltb 2 _ then _ else _); eauto. }
    simpl. destruct Ex as [->|[e Ee]]; auto. rewrite Ee. simpl. destruct Hin as [->|Hin].
    - exfalso. unfold new_lexentry, range_size in Ee. rewrite H1 in Ee. destruct (box_size_total _ _ Hd H2) as [n En]. rewrite En in Ee. simpl in Ee.
      apply cassert_ok in Ee. destruct Ee as [E0 Ee]. apply cassert_ok in Ee. destruct Ee as [E1 Ee]. apply cassert_ok in Ee. destruct Ee as [E2 Ee].
      apply Hn. exists (b_from (r_box r)). unfold InBox. 
      destruct Hd as [D|[D|D]]; rewrite D in *; simpl in *; lia.
    - rewrite (IH Hin). reflexivity. }
  unfold new_layout_lex. destruct ranges as [|x l]; [destruct Hin|]. inversion HF as [|? ? [H1 _] _]; subst. rewrite H1, G. reflexivity.
Qed.

(* The offsets of the indexes of a section with N indexes are exactly 0..N-1, and they
   respect the lexicographic order; so different indexes have different offsets. *)
Theorem C34_offsets : forall sp l n b N, valid_dims (sp_dims sp) -> Built sp l -> SectionBox l n b ->
  HasCount (sp_dims sp) b N ->
  (forall i, InBox (sp_dims sp) i b -> exists o, offset_lex l n i = Ok o /\ 0 <= o < N) /\
  (forall i j o o', InBox (sp_dims sp) i b -> InBox (sp_dims sp) j b -> LexLt (sp_dims sp) i j ->
     offset_lex l n i = Ok o -> offset_lex l n j = Ok o' -> o < o') /\
  (forall o, 0 <= o < N -> exists i, InBox (sp_dims sp) i b /\ offset_lex l n i = Ok o) /\
  (forall i j o, InBox (sp_dims sp) i b -> InBox (sp_dims sp) j b ->
     offset_lex l n i = Ok o -> offset_lex l n j = Ok o -> SameIndex (sp_dims sp) i j).
Proof.
  intros sp l n b N Hd HB HS HC.
  assert (Hne : NonEmpty (sp_dims sp) b).
  { destruct (section_entry sp l n b Hd HB HS) as [e [_ [_ [<- [W _]]]]]. apply W. }
  rewrite (vol_of_count _ _ _ Hd Hne HC). conjs.
  - intros i Hi. exists (boff (sp_dims sp) b i). split; [apply (offset_ok sp); auto|apply boff_range; auto].
  - intros i j o o' Hi Hj HL. rewrite !(offset_ok sp l n b) by auto. intros E E'; injection E as <-; injection E' as <-.
    now apply boff_mono.
  - intros o Ho. destruct (boff_onto _ b o Hd Hne Ho) as [i [Hi [_ E]]]. exists i. split; auto. rewrite (offset_ok sp l n b) by auto. congruence.
  - intros i j o Hi Hj. rewrite !(offset_ok sp l n b) by auto. intros E E'. injection E as E. injection E' as E'.
    eapply boff_inj; eauto. congruence.
Qed.

(* equivalently: the offset of an index is its position in the lexicographic enumeration *)
Theorem C34_rank : forall sp l n b L, valid_dims (sp_dims sp) -> Built sp l -> SectionBox l n b ->
  Enumerates (sp_dims sp) b L ->
  forall k i, nth_error L k = Some i -> offset_lex l n i = Ok (Z.of_nat k).
Proof.
  intros sp l n b L Hd HB HS [HL1 HL2] k i Hk.
  assert (HE : Enumerates (sp_dims sp) b L) by (split; auto).
  assert (Hi : InBox (sp_dims sp) i b) by (apply HL1; eapply nth_error_In; eauto).
  assert (Hne : NonEmpty (sp_dims sp) b) by (exists i; auto).
  assert (Hlen : Z.of_nat (length L) = vol (sp_dims sp) b) by (eapply Enumerates_count; eauto; now apply vol_count).
  rewrite (offset_ok sp l n b) by auto. f_equal.
  (* offsets along L: strictly increasing, length vol values in [0, vol) *)
  assert (G : forall (l : list Z) lo hi, StronglySorted Z.lt l -> (forall x, In x l -> lo <= x < hi) -> hi - lo = Z.of_nat (length l) ->
     forall k x, nth_error l k = Some x -> x = lo + Z.of_nat k).
  { clear. induction l as [|a l IH]; intros lo hi S HI Hlen k x Hk; [destruct k; discriminate|].
    apply StronglySorted_inv in S. destruct S as [S1 S2]. rewrite Forall_forall in S2. simpl in Hlen.
    assert (Ha : a = lo).
    { assert (HA := HI a (or_introl eq_refl)). destruct (Z.eq_dec a lo); auto. exfalso.
      assert (N : NoDup l) by (clear - S1; induction S1; constructor; auto; intros Hin; rewrite Forall_forall in H; apply H in Hin; lia).
      assert (Inc : incl l (zseq (a + 1) (Z.to_nat (hi - a - 1)))).
      { intros y Hy. apply zseq_In. assert (HY := HI y (or_intror Hy)). specialize (S2 y Hy). lia. }
      assert (Le := NoDup_incl_length N Inc). rewrite zseq_length in Le. lia. }
    destruct k; simpl in Hk; [injection Hk as <-; lia|].
    rewrite (IH (lo + 1) hi S1) with (k := k) (x := x); auto; try lia.
    intros y Hy. assert (HY := HI y (or_intror Hy)). specialize (S2 y Hy). lia. }
  assert (K := G (map (boff (sp_dims sp) b) L) 0 (vol (sp_dims sp) b)). rewrite map_length in K.
  - assert (Srt : StronglySorted Z.lt (map (boff (sp_dims sp) b) L)).
    { assert (Sub : forall l', (forall x, In x l' -> In x L) -> StronglySorted (LexLt (sp_dims sp)) l' -> StronglySorted Z.lt (map (boff (sp_dims sp) b) l')).
      { intros l' Hin S. induction S; simpl; constructor.
        - apply IHS. intros; apply Hin; now right.
        - rewrite Forall_forall in *. intros y Hy. apply in_map_iff in Hy. destruct Hy as [j [<- Hj]].
          apply boff_mono; auto; [apply HL1, Hin; now left|apply HL1, Hin; now right]. }
      apply Sub; auto. }
    specialize (K Srt). rewrite (K ltac:(intros x Hx; apply in_map_iff in Hx; destruct Hx as [j [<- Hj]]; apply boff_range; auto; now apply HL1) ltac:(lia) k (boff (sp_dims sp) b i)).
    + lia.
    + rewrite nth_error_map, Hk. reflexivity.
Qed.

(* the section found for an index is the first one with it; -1 if there is none *)
Theorem C34_section : forall sp l i, valid_dims (sp_dims sp) -> Built sp l ->
  (section_lex l i = -1 /\ forall n b, SectionBox l n b -> ~ InBox (sp_dims sp) i b) \/
  (exists b, SectionBox l (section_lex l i) b /\ InBox (sp_dims sp) i b /\
     forall n b', n < section_lex l i -> SectionBox l n b' -> ~ InBox (sp_dims sp) i b').
Proof.
  intros sp l i Hd HB. destruct (Built_wf sp l Hd HB) as [W _]. unfold section_lex. rewrite W.
  destruct (section_loop_spec (sp_dims sp) i (lx_e l) Hd 0) as [[E H]|[k [e [E [H1 [H2 H3]]]]]].
  - left. split; auto. intros n b [_ [e [He <-]]]. apply H. eapply nth_error_In; eauto.
  - right. rewrite E. exists (r_box (le_range e)). conjs; auto.
    + split; [lia|]. exists e. replace (Z.to_nat (0 + Z.of_nat k)) with k by lia. auto.
    + intros n b' Hn [Hn0 [e' [He' <-]]]. apply (H3 (Z.to_nat n) e'); auto. lia.
Qed.

(* The assertion in the offset function does not catch indexes outside of the section: for
   the 2d section [0,3)x[0,2), index (4,0) gets the offset of (1,1). *)
Theorem C34_outside_refuted : exists sp l b i j o, valid_dims (sp_dims sp) /\ Built sp l /\ SectionBox l 0 b /\
  InBox (sp_dims sp) i b /\ ~ InBox (sp_dims sp) j b /\ offset_lex l 0 i = Ok o /\ offset_lex l 0 j = Ok o.
Proof.
  pose (sp := mkSpace 1 2 (mkBox (mkIdx 0 0 0) (mkIdx 10 10 0))). pose (b := mkBox (mkIdx 0 0 0) (mkIdx 3 2 0)).
  destruct (new_layout_lex [mkRange (Some sp) b]) as [l| | | |] eqn:E; try discriminate E.
  exists sp, l, b, (mkIdx 1 1 0), (mkIdx 4 0 0), 4.
  assert (Hd : valid_dims (sp_dims sp)) by (right; left; reflexivity).
  assert (Hn : NonEmpty 2 b) by (exists (mkIdx 0 0 0); unfold InBox; simpl; lia).
  conjs; auto.
  - eapply Built_new; [| |exact E]; [discriminate|]. constructor; [|constructor]. split; [reflexivity|]. split; [exact Hn|].
    exists (vol 2 b). split; [apply vol_count; auto; exact Hd|reflexivity].
  - injection E as <-. split; [lia|]. eexists. split; reflexivity.
  - unfold InBox; simpl; lia.
  - unfold InBox; simpl; lia.
  - injection E as <-. reflexivity.
  - injection E as <-. reflexivity.
Qed.

(* ---------- C35: packing and unpacking in pieces ---------- *)

(* One call of pack at position k of the enumeration: it packs as many elements as fit into the
   buffer, in order; it moves the position behind them; it writes nothing but the buffer. *)
Theorem C35_pack_step : forall sp mp B N r pk L sb sn m i buf size k,
  valid_dims (sp_dims sp) -> GoodMap sp mp B N -> r_space r = Some sp -> NonEmpty (sp_dims sp) (r_box r) ->
  SubBox (sp_dims sp) (r_box r) (r_box (lm_req mp)) -> PackOf sp mp B r pk -> Enumerates (sp_dims sp) (r_box r) L ->
  Separate mp N sb sn -> Scratch sb sn buf size -> 0 <= size -> At (sp_dims sp) (r_box r) L i k ->
  exists m' i' n vs, pk m i buf size = Ok (m', i', Z.of_nat n) /\
    Z.of_nat n = Z.min (Z.of_nat (length L) - Z.of_nat k) (size / lm_es mp) /\
    At (sp_dims sp) (r_box r) L i' (k + n) /\
    OnlyChanges buf (Z.of_nat n * lm_es mp) m m' /\
    Forall2 (ValueAt mp m) (firstn n (skipn k L)) vs /\
    mread m' buf (Z.to_nat (Z.of_nat n * lm_es mp)) = concat vs.
Proof.
  intros sp mp B N r pk L sb sn m i buf size k Hd HG Hr Hne Hsub HP HL Hsep Hsc Hs Hat.
  assert (EL := Enumerates_unique _ _ L Hd Hne HL). subst L.
  destruct (pack_step sp mp B N r Hd HG Hr Hne Hsub sb sn Hsep pk m i buf size k HP Hat Hs Hsc) as [m' [i' [E1 [E2 [E3 E4]]]]].
  exists m', i', (Z.to_nat (Z.min (Z.of_nat (length (lexlist (sp_dims sp) (r_box r))) - Z.of_nat k) (size / lm_es mp))).
  eexists. split; [exact E1|]. split.
  { destruct Hat as [Hk _]. assert (0 <= size / lm_es mp) by (apply Z.div_pos; assert (P := es_pos sp mp B N HG); lia). lia. }
  split; auto. split; auto. split; [|exact E4].
  set (q := Z.to_nat _). assert (Hin : forall j, In j (firstn q (skipn k (lexlist (sp_dims sp) (r_box r)))) -> InBox (sp_dims sp) j B).
  { intros j Hj. eapply L_in; eauto. eapply skipn_In, firstn_In; eauto. }
  induction (firstn q (skipn k (lexlist (sp_dims sp) (r_box r)))) as [|j l IH]; simpl; constructor.
  - apply (ValueAt_adr sp mp B N Hd HG); auto. apply Hin. now left.
  - apply IH. intros; apply Hin; now right.
Qed.

(* Any sequence of calls from the start of the range, with any buffers (of at least one
   element): the chunks together are the values of the first k' indexes; all of them exactly
   when the end index is reached. The values in the mapping do not change. *)
Theorem C35_pack_any_chunks : forall sp mp B N r pk L sb sn m cs m' i',
  valid_dims (sp_dims sp) -> GoodMap sp mp B N -> r_space r = Some sp -> NonEmpty (sp_dims sp) (r_box r) ->
  SubBox (sp_dims sp) (r_box r) (r_box (lm_req mp)) -> PackOf sp mp B r pk -> Enumerates (sp_dims sp) (r_box r) L ->
  Separate mp N sb sn -> PackRun pk (lm_es mp) (Scratch sb sn) m (b_from (r_box r)) cs m' i' ->
  exists k vs, At (sp_dims sp) (r_box r) L i' k /\ Forall2 (ValueAt mp m) (firstn k L) vs /\ concat cs = concat vs /\
    (SameIndex (sp_dims sp) i' (b_to (r_box r)) <-> k = length L) /\
    (forall i v, InBox (sp_dims sp) i B -> (ValueAt mp m' i v <-> ValueAt mp m i v)).
Proof.
  intros sp mp B N r pk L sb sn m cs m' i' Hd HG Hr Hne Hsub HP HL Hsep HR.
  assert (EL := Enumerates_unique _ _ L Hd Hne HL). subst L.
  destruct (pack_run sp mp B N r Hd HG Hr Hne Hsub sb sn Hsep pk m _ cs m' i' HP HR 0%nat (at_first sp r Hd Hne)) as [k [K1 [K2 [K3 K4]]]].
  rewrite Nat.sub_0_r in K3. simpl skipn in K3. exists k. eexists. split; auto. split; [|split; [exact K3|split]].
  - assert (Hin : forall j, In j (firstn k (lexlist (sp_dims sp) (r_box r))) -> InBox (sp_dims sp) j B).
    { intros j Hj. eapply L_in; eauto. eapply firstn_In; eauto. }
    clear K3. induction (firstn k (lexlist (sp_dims sp) (r_box r))) as [|j l IH]; simpl; constructor.
    + apply (ValueAt_adr sp mp B N Hd HG); auto. apply Hin. now left.
    + apply IH. intros; apply Hin; now right.
  - split.
    + intros E. destruct (Nat.eq_dec k (length (lexlist (sp_dims sp) (r_box r)))); auto. exfalso.
      destruct (At_lexfrom _ _ k i' Hd Hne ltac:(destruct K2; lia) K2) as [Hi _]. eapply InBox_not_to; eauto.
    + intros ->. eapply At_end; eauto.
  - intros i v Hi. rewrite !(ValueAt_adr sp mp B N Hd HG) by auto. 
    rewrite (rd_scratch sp mp B N r Hd HG Hne Hsub sb sn Hsep m m' i) by auto. reflexivity.
Qed.

(* One call of unpack at position k, k before the end: the elements in the buffer become the values
   of the next indexes, nothing else changes *)
Theorem C35_unpack_step : forall sp mp B N r up L sb sn m i buf size k,
  valid_dims (sp_dims sp) -> GoodMap sp mp B N -> r_space r = Some sp -> NonEmpty (sp_dims sp) (r_box r) ->
  SubBox (sp_dims sp) (r_box r) (r_box (lm_req mp)) -> UnpackOf sp mp B r up -> Enumerates (sp_dims sp) (r_box r) L ->
  Separate mp N sb sn -> Scratch sb sn buf size -> 0 < size -> At (sp_dims sp) (r_box r) L i k -> (k < length L)%nat ->
  exists m' i' n, up m i buf size = Ok (m', i', Z.of_nat n) /\
    Z.of_nat n = Z.min (Z.of_nat (length L) - Z.of_nat k) (size / lm_es mp) /\
    At (sp_dims sp) (r_box r) L i' (k + n) /\
    (forall t j, (t < n)%nat -> nth_error L (k + t) = Some j ->
       ValueAt mp m' j (mread m (buf + Z.of_nat t * lm_es mp) (Z.to_nat (lm_es mp)))) /\
    (forall a, (forall j p, In j (firstn n (skipn k L)) -> AddrOf mp j p -> a < p \/ p + lm_es mp <= a) -> m' a = m a).
Proof.
  intros sp mp B N r up L sb sn m i buf size k Hd HG Hr Hne Hsub HP HL Hsep Hsc Hs Hat Hk.
  assert (EL := Enumerates_unique _ _ L Hd Hne HL). subst L.
  destruct (unpack_step sp mp B N r Hd HG Hr Hne Hsub sb sn Hsep up m i buf size k HP Hat Hk Hs Hsc) as [m' [i' [E1 [E2 [E3 E4]]]]].
  eexists m', i', _. split; [exact E1|]. split; [|split; [exact E2|split]].
  - assert (0 <= size / lm_es mp) by (apply Z.div_pos; assert (P := es_pos sp mp B N HG); lia). lia.
  - intros t j Ht Hj. apply (ValueAt_adr sp mp B N Hd HG).
    + eapply L_in; eauto. eapply nth_error_In; eauto.
    + symmetry. apply E4; auto.
  - intros a Ha. apply E3. intros j Hj. apply (Ha j); auto. apply (AddrOf_adr sp mp B N Hd HG); auto.
    eapply L_in; eauto. eapply skipn_In, firstn_In; eauto.
Qed.

(* Round trip: a range is packed completely from mapping A in process P, in any chunks; the bytes
   are unpacked into mapping B of process Q (another memory), in any pieces of whole elements. Then every
   index of the range has in B the value it had in A, and nothing else in Q's memory outside of
   the buffers has changed. *)
Theorem C35_roundtrip : forall sp mpA BA NA mpB BB NB r pk up sbA snA sbB snB mA csA mA' iA mB csB mB' iB,
  valid_dims (sp_dims sp) -> r_space r = Some sp -> NonEmpty (sp_dims sp) (r_box r) ->
  GoodMap sp mpA BA NA -> SubBox (sp_dims sp) (r_box r) (r_box (lm_req mpA)) -> PackOf sp mpA BA r pk -> Separate mpA NA sbA snA ->
  GoodMap sp mpB BB NB -> SubBox (sp_dims sp) (r_box r) (r_box (lm_req mpB)) -> UnpackOf sp mpB BB r up -> Separate mpB NB sbB snB ->
  lm_es mpB = lm_es mpA ->
  PackRun pk (lm_es mpA) (Scratch sbA snA) mA (b_from (r_box r)) csA mA' iA -> SameIndex (sp_dims sp) iA (b_to (r_box r)) ->
  concat csB = concat csA -> Forall (fun c => exists q, Z.of_nat (length c) = Z.of_nat q * lm_es mpB) csB ->
  UnpackRun up (Scratch sbB snB) mB (b_from (r_box r)) csB mB' iB ->
  SameIndex (sp_dims sp) iB (b_to (r_box r)) /\
  (forall i v, InBox (sp_dims sp) i (r_box r) -> ValueAt mpA mA i v -> ValueAt mpB mB' i v) /\
  (forall a, (a < sbB \/ sbB + snB <= a) -> ~ Inside (sp_dims sp) mpB (r_box r) a -> mB' a = mB a).
Proof.
  intros sp mpA BA NA mpB BB NB r pk up sbA snA sbB snB mA csA mA' iA mB csB mB' iB Hd Hr Hne HGA HSA HPA HsA HGB HSB HPB HsB Hes HRA HiA Hcs HF HRB.
  assert (PA := es_pos sp mpA BA NA HGA).
  set (L := lexlist (sp_dims sp) (r_box r)).
  destruct (pack_run sp mpA BA NA r Hd HGA Hr Hne HSA sbA snA HsA pk mA _ csA mA' iA HPA HRA 0%nat (at_first sp r Hd Hne)) as [k [K1 [K2 [K3 K4]]]].
  assert (Hk : k = length L).
  { destruct (Nat.eq_dec k (length L)); auto. exfalso.
    destruct (At_lexfrom _ _ k iA Hd Hne ltac:(destruct K2; unfold L in *; lia) K2) as [Hi _]. eapply InBox_not_to; eauto. }
  rewrite Nat.sub_0_r in K3. simpl skipn in K3. rewrite Hk in K3. unfold L in K3. rewrite firstn_all in K3.
  pose (val := fun j => mread mA (adr (sp_dims sp) mpA BA j) (Z.to_nat (lm_es mpA))).
  destruct (unpack_run sp mpB BB NB r Hd HGB Hr Hne HSB sbB snB HsB up mB _ csB mB' iB val HPB HRB) with (k := 0%nat) as [U1 [U2 U3]].
  - intros j Hj. unfold val. rewrite Proof_Type.mread_length. now rewrite Hes.
  - eapply Forall_impl; [|exact HF]. intros c [q Hq]. exists q. rewrite Hes in *. nia.
  - apply at_first; auto.
  - rewrite Hcs, K3. reflexivity.
  - conjs.
    + eapply At_end; [|exact U1]. lia.
    + intros i v Hi Hv.
      assert (HiA' : InBox (sp_dims sp) i BA) by (apply (b_in_B sp mpA BA NA r HGA HSA); auto).
      assert (HiB' : InBox (sp_dims sp) i BB) by (apply (b_in_B sp mpB BB NB r HGB HSB); auto).
      apply (ValueAt_adr sp mpA BA NA Hd HGA) in Hv; auto. apply (ValueAt_adr sp mpB BB NB Hd HGB); auto.
      assert (Hc : In (can (sp_dims sp) i) L).
      { apply (proj1 (lexlist_enum _ _ Hd Hne)). split; [now apply InBox_can|apply can_canon]. }
      specialize (U2 _ Hc). unfold val, adr in *. rewrite !boff_can in U2. rewrite Hv. symmetry. exact U2.
    + intros a Ha Hn. apply U3; auto. intros j Hj. simpl in Hj.
      destruct (L_in sp mpB BB NB r Hd HGB Hne HSB j Hj) as [J1 J2].
      destruct (Z_lt_dec a (adr (sp_dims sp) mpB BB j)); [auto|].
      destruct (Z_le_dec (adr (sp_dims sp) mpB BB j + lm_es mpB) a); [auto|]. exfalso. apply Hn.
      exists j, (adr (sp_dims sp) mpB BB j). conjs; auto; [|lia|lia]. apply (AddrOf_adr sp mpB BB NB Hd HGB); auto.
Qed.

(* ---------- C36: specialised and generic functions agree ---------- *)

Lemma orel_same d b x y z : orel (RunRel d b) x z -> orel (RunRel d b) y z -> SameResult d x y.
Proof.
  destruct x as [[[m i] n]| | | |], y as [[[m' i'] n']| | | |], z as [[[m2 rest] n2]| | | |]; simpl; try contradiction; auto.
  intros [A1 [A2 A3]] [B1 [B2 B3]]. simpl in *. conjs; try congruence. apply can_same.
  destruct rest; simpl in *; [congruence|]. destruct A3 as [A3 _], B3 as [B3 _]. congruence.
Qed.

Theorem C36_pack_agree : forall sp mp B N r m i buf size,
  valid_dims (sp_dims sp) -> GoodMap sp mp B N -> r_space r = Some sp -> NonEmpty (sp_dims sp) (r_box r) ->
  SubBox (sp_dims sp) (r_box r) (r_box (lm_req mp)) -> SameExtent (sp_dims sp) (lm_layout mp) B ->
  InBox (sp_dims sp) i (r_box r) \/ SameIndex (sp_dims sp) i (b_to (r_box r)) -> 0 <= size ->
  SameResult (sp_dims sp) (pack_lex mp r m i buf size) (pack_gen (gmap_of mp) r m i buf size).
Proof.
  intros sp mp B N r m i buf size Hd HG Hr Hne Hsub HE [Hi|Hi] Hs.
  - eapply orel_same.
    + exact (pack_call sp mp B N r Hd HG Hr Hne Hsub (fun m i buf size => pack_lex mp r m i buf size) m i buf size (or_intror (conj HE eq_refl)) Hi Hs).
    + exact (pack_call sp mp B N r Hd HG Hr Hne Hsub (fun m i buf size => pack_gen (gmap_of mp) r m i buf size) m i buf size (or_introl eq_refl) Hi Hs).
  - apply index_isEqual_spec in Hi; auto. destruct HG as (G1 & _). destruct (Built_wf sp _ Hd G1) as [W _].
    unfold pack_lex, pack_gen. simpl gm_dims. rewrite W, Hi. simpl. conjs; auto. apply SameIndex_refl.
Qed.

Theorem C36_unpack_agree : forall sp mp B N r m i buf size,
  valid_dims (sp_dims sp) -> GoodMap sp mp B N -> r_space r = Some sp -> NonEmpty (sp_dims sp) (r_box r) ->
  SubBox (sp_dims sp) (r_box r) (r_box (lm_req mp)) -> SameExtent (sp_dims sp) (lm_layout mp) B ->
  InBox (sp_dims sp) i (r_box r) \/ SameIndex (sp_dims sp) i (b_to (r_box r)) -> 0 <= size ->
  SameResult (sp_dims sp) (unpack_lex mp r m i buf size) (unpack_gen (gmap_of mp) r m i buf size).
Proof.
  intros sp mp B N r m i buf size Hd HG Hr Hne Hsub HE Hi Hs.
  destruct (Z.eq_dec size 0) as [->|Hs0]; [exact I|]. destruct Hi as [Hi|Hi].
  - eapply orel_same.
    + exact (unpack_call sp mp B N r Hd HG Hr Hne Hsub (fun m i buf size => unpack_lex mp r m i buf size) m i buf size (or_intror (conj HE eq_refl)) Hi ltac:(lia)).
    + exact (unpack_call sp mp B N r Hd HG Hr Hne Hsub (fun m i buf size => unpack_gen (gmap_of mp) r m i buf size) m i buf size (or_introl eq_refl) Hi ltac:(lia)).
  - apply index_isEqual_spec in Hi; auto. destruct HG as (G1 & _). destruct (Built_wf sp _ Hd G1) as [W _].
    unfold unpack_lex, unpack_gen. simpl gm_dims. rewrite W, Hi. simpl. destruct (size >? 0); exact I.
Qed.

(* copying between two mappings: both functions give every index of the range in the target the value
   it has in the source and change nothing else *)
Definition Copied (d : nat) (fo to_ : lmap) (b : box) (m m' : mem) : Prop :=
  (forall i v, InBox d i b -> ValueAt fo m i v -> ValueAt to_ m' i v) /\
  (forall a, ~ Inside d to_ b a -> m' a = m a).

Lemma CopySpec_Copied sp fo to_ BF BT NF NT b m m' : valid_dims (sp_dims sp) -> GoodMap sp fo BF NF -> GoodMap sp to_ BT NT ->
  lm_es to_ = lm_es fo -> SubBox (sp_dims sp) b BF -> SubBox (sp_dims sp) b BT ->
  CopySpec sp fo to_ BF BT b m m' -> Copied (sp_dims sp) fo to_ b m m'.
Proof.
  intros Hd HF HT Hes HSF HST [C1 C2]. split.
  - intros i v Hi Hv. apply (ValueAt_adr sp fo BF NF Hd HF) in Hv; [|now apply HSF]. apply (ValueAt_adr sp to_ BT NT Hd HT); [now apply HST|].
    rewrite Hv, Hes. unfold mread. apply map_ext_in. intros k Hk. apply in_seq in Hk. symmetry. apply C1; auto.
    assert (P := es_pos sp fo BF NF HF). lia.
  - intros a Ha. apply C2. intros i Hi.
    destruct (Z_lt_dec a (adr (sp_dims sp) to_ BT i)); [auto|].
    destruct (Z_le_dec (adr (sp_dims sp) to_ BT i + lm_es fo) a); [auto|]. exfalso. apply Ha.
    exists i, (adr (sp_dims sp) to_ BT i). conjs; auto; [|lia|lia]. apply (AddrOf_adr sp to_ BT NT Hd HT); auto.
Qed.

Theorem C36_copy_agree : forall sp fo to_ BF BT NF NT b n m,
  valid_dims (sp_dims sp) -> GoodMap sp fo BF NF -> GoodMap sp to_ BT NT -> lm_es to_ = lm_es fo ->
  NonEmpty (sp_dims sp) b -> HasCount (sp_dims sp) b n -> n < two64 -> SubBox (sp_dims sp) b BF -> SubBox (sp_dims sp) b BT ->
  Away (lm_start fo) (NF * lm_es fo) (lm_start to_) (NT * lm_es fo) ->
  (exists m2, copy_gen sp b (gmap_of fo) (gmap_of to_) m = Ok m2 /\ Copied (sp_dims sp) fo to_ b m m2 /\
   (SameExtent (sp_dims sp) (lm_layout fo) BF -> SameExtent (sp_dims sp) (lm_layout to_) BT ->
    exists m1, copy_lex b fo to_ m = Ok m1 /\ Copied (sp_dims sp) fo to_ b m m1 /\ forall a, m1 a = m2 a)).
Proof.
  intros sp fo to_ BF BT NF NT b n m Hd HF HT Hes Hne Hc Hn HSF HST Haw.
  rewrite (vol_of_count _ _ _ Hd Hne Hc) in Hn.
  destruct (copy_gen_ok sp fo to_ BF BT NF NT b Hd HF HT Hes Hne HSF HST Haw m Hn) as [m2 [E2 C2]]; [apply HF|].
  exists m2. split; auto. split; [eapply CopySpec_Copied; eauto|]. intros HEF HET.
  destruct (copy_lex_ok sp fo to_ BF BT NF NT b Hd HF HT Hes Hne HSF HST Haw HEF HET m) as [m1 [E1 C1]].
  exists m1. split; auto. split; [eapply CopySpec_Copied; eauto|]. eapply CopySpec_unique; eauto.
Qed.

(* ---------- examples and refutations ---------- *)

Definition xsp := mkSpace 1 2 (mkBox (mkIdx 0 0 0) (mkIdx 10 10 0)).
Definition xb1 := mkBox (mkIdx 0 0 0) (mkIdx 3 2 0).
Definition xb2 := mkBox (mkIdx 0 5 0) (mkIdx 2 7 0).
Definition xr (b : box) := mkRange (Some xsp) b.
Definition xlay := Eval vm_compute in match new_layout_lex [xr xb1; xr xb2] with Ok l => l | _ => mkLex 0 0 [] end.
Definition xmem : mem := fun a => a mod 256.
(* mappings for both sections, elements of 2 bytes *)
Definition xmp (sec : Z) (b : box) (start : Z) := mkLmap xlay sec start 2 (xr b).

Lemma xvd : valid_dims (sp_dims xsp). Proof. right; left; reflexivity. Qed.
Lemma xne1 : NonEmpty 2 xb1. Proof. exists (mkIdx 0 0 0). unfold InBox; simpl; lia. Qed.
Lemma xne2 : NonEmpty 2 xb2. Proof. exists (mkIdx 0 5 0). unfold InBox; simpl; lia. Qed.
Lemma xbuilt : Built xsp xlay.
Proof.
  apply (Built_new xsp [xr xb1; xr xb2]); [discriminate| |reflexivity].
  repeat constructor; try exact xne1; try exact xne2.
  - exists 6. split; [exact (vol_count 2 xb1 xvd xne1)|reflexivity].
  - exists 4. split; [exact (vol_count 2 xb2 xvd xne2)|reflexivity].
Qed.
Lemma xgood1 start : GoodMap xsp (xmp 0 xb1 start) xb1 6.
Proof.
  unfold GoodMap, xmp; simpl. conjs; auto; try exact xbuilt; try lia.
  - split; [lia|]. eexists. split; reflexivity.
  - exact (vol_count 2 xb1 xvd xne1).
  - intros i Hi; exact Hi.
Qed.
Lemma xgood2 start : GoodMap xsp (xmp 1 xb2 start) xb2 4.
Proof.
  unfold GoodMap, xmp; simpl. conjs; auto; try exact xbuilt; try lia.
  - split; [lia|]. eexists. split; reflexivity.
  - exact (vol_count 2 xb2 xvd xne2).
  - intros i Hi; exact Hi.
Qed.
Lemma xsame1 : SameExtent 2 xlay xb1.
Proof.
  intros b [_ [e [E <-]]]. simpl in E. injection E as <-. simpl. lia.
Qed.

(* hypotheses of C34 *)
Example C34_example : exists l, new_layout_lex [xr xb1; xr xb2] = Ok l /\ Built xsp l /\ SectionBox l 1 xb2 /\
  HasCount 2 xb2 4 /\ offset_lex l 1 (mkIdx 1 6 0) = Ok 3 /\ section_lex l (mkIdx 1 6 0) = 1 /\ lx_count l = 10 /\
  Enumerates 2 xb2 [mkIdx 0 5 0; mkIdx 1 5 0; mkIdx 0 6 0; mkIdx 1 6 0].
Proof.
  exists xlay. conjs; try reflexivity; try exact xbuilt.
  - apply (xgood2 0).
  - exact (vol_count 2 xb2 xvd xne2).
  - change [mkIdx 0 5 0; mkIdx 1 5 0; mkIdx 0 6 0; mkIdx 1 6 0] with (lexlist 2 xb2). apply lexlist_enum; [exact xvd|exact xne2].
Qed.

(* hypotheses of C35: pack the inner 2x2 range of section 0 in chunks of 3 and 5 bytes into the buffer
   at 1000 and unpack it into section 1 ... of another mapping at 200 *)
Definition xrr := xr (mkBox (mkIdx 1 0 0) (mkIdx 3 2 0)).
Example C35_example : exists cs m' i' m2 i2,
  GoodMap xsp (xmp 0 xb1 100) xb1 6 /\ SubBox 2 (r_box xrr) (r_box (lm_req (xmp 0 xb1 100))) /\ NonEmpty 2 (r_box xrr) /\
  PackOf xsp (xmp 0 xb1 100) xb1 xrr (fun m i buf size => pack_lex (xmp 0 xb1 100) xrr m i buf size) /\
  Separate (xmp 0 xb1 100) 6 1000 50 /\ Separate (xmp 0 xb1 200) 6 1000 50 /\
  PackRun (fun m i buf size => pack_lex (xmp 0 xb1 100) xrr m i buf size) 2 (Scratch 1000 50) xmem (mkIdx 1 0 0) cs m' i' /\
  SameIndex 2 i' (mkIdx 3 2 0) /\ cs = [[102; 103]; [104; 105; 108; 109]; [110; 111]] /\
  UnpackRun (fun m i buf size => unpack_gen (gmap_of (xmp 0 xb1 200)) xrr m i buf size) (Scratch 1000 50) xmem (mkIdx 1 0 0) cs m2 i2 /\
  ValueAt (xmp 0 xb1 200) m2 (mkIdx 1 1 0) [108; 109].
Proof.
  do 5 eexists. split; [apply xgood1|]. split; [intros i; unfold InBox; simpl; lia|].
  split; [exists (mkIdx 1 0 0); unfold InBox; simpl; lia|].
  split; [right; split; [exact xsame1|reflexivity]|].
  split; [unfold Separate, Away; simpl; lia|]. split; [unfold Separate, Away; simpl; lia|].
  split.
  - eapply (PackRun_cons _ _ _ _ _ 1000 3); [lia|unfold Scratch; lia|vm_compute; reflexivity|].
    eapply (PackRun_cons _ _ _ _ _ 1010 5); [lia|unfold Scratch; lia|vm_compute; reflexivity|].
    eapply (PackRun_cons _ _ _ _ _ 1000 9); [lia|unfold Scratch; lia|vm_compute; reflexivity|].
    apply PackRun_nil.
  - split; [unfold SameIndex; simpl; lia|]. split; [vm_compute; reflexivity|]. split.
    + eapply (UnpackRun_cons _ _ _ _ 1000); [unfold Scratch; vm_compute; split; discriminate|vm_compute; reflexivity|].
      eapply (UnpackRun_cons _ _ _ _ 1004); [unfold Scratch; vm_compute; split; discriminate|vm_compute; reflexivity|].
      eapply (UnpackRun_cons _ _ _ _ 1008); [unfold Scratch; vm_compute; split; discriminate|vm_compute; reflexivity|].
      apply UnpackRun_nil.
    + eexists. split; [eexists; split; [vm_compute; reflexivity|reflexivity]|]. vm_compute. reflexivity.
Qed.

Example C36_example : GoodMap xsp (xmp 0 xb1 100) xb1 6 /\ SameExtent 2 (lm_layout (xmp 0 xb1 100)) xb1 /\
  Away 100 (6 * 2) 300 (6 * 2) /\
  is_ok (copy_lex xb1 (xmp 0 xb1 100) (xmp 0 xb1 300) xmem) = true /\ is_ok (copy_gen xsp xb1 (gmap_of (xmp 0 xb1 100)) (gmap_of (xmp 0 xb1 300)) xmem) = true.
Proof. conjs; try apply xgood1; try exact xsame1; try (unfold Away; lia); vm_compute; reflexivity. Qed.

(* Without equal extents the functions disagree: the specialised pack uses the strides of section 0 also
   for other sections. Packing the whole section 1 (2x2) of a layout whose section 0 is 3 wide takes the
   second row from the wrong place: the value of index (0,6) is at 104, the packed bytes are from 106. *)
Theorem C36_pack_refuted : exists sp mp B N r m i buf size m1 i1 n m2 i2,
  valid_dims (sp_dims sp) /\ GoodMap sp mp B N /\ r_space r = Some sp /\ NonEmpty (sp_dims sp) (r_box r) /\
  SubBox (sp_dims sp) (r_box r) (r_box (lm_req mp)) /\ InBox (sp_dims sp) i (r_box r) /\ Separate mp N buf size /\
  pack_lex mp r m i buf size = Ok (m1, i1, n) /\ pack_gen (gmap_of mp) r m i buf size = Ok (m2, i2, n) /\
  mread m1 buf 8 = [100; 101; 102; 103; 106; 107; 108; 109] /\
  mread m2 buf 8 = [100; 101; 102; 103; 104; 105; 106; 107] /\
  ValueAt mp m (mkIdx 0 6 0) [104; 105].
Proof.
  exists xsp, (xmp 1 xb2 100), xb2, 4, (xr xb2), xmem, (mkIdx 0 5 0), 1000, 8. do 5 eexists.
  split; [exact xvd|]. split; [apply xgood2|]. split; [reflexivity|]. split; [exact xne2|]. split; [intros i Hi; exact Hi|].
  split; [unfold InBox; simpl; lia|]. split; [unfold Separate, Away; simpl; lia|].
  split; [vm_compute; reflexivity|]. split; [vm_compute; reflexivity|]. split; [vm_compute; reflexivity|]. split; [vm_compute; reflexivity|].
  eexists. split; [eexists; split; [vm_compute; reflexivity|reflexivity]|]. vm_compute. reflexivity.
Qed.

(* the same for copying: the element of index (0,6) is written behind the end of the target mapping's element *)
Theorem C36_copy_refuted : exists sp fo to_ B N b m m1 m2,
  valid_dims (sp_dims sp) /\ GoodMap sp fo B N /\ GoodMap sp to_ B N /\ lm_es to_ = lm_es fo /\ b = B /\
  Away (lm_start fo) (N * lm_es fo) (lm_start to_) (N * lm_es fo) /\
  copy_lex b fo to_ m = Ok m1 /\ copy_gen sp b (gmap_of fo) (gmap_of to_) m = Ok m2 /\
  ValueAt fo m (mkIdx 0 6 0) [104; 105] /\ ValueAt to_ m2 (mkIdx 0 6 0) [104; 105] /\ ValueAt to_ m1 (mkIdx 0 6 0) [48; 49] /\
  (exists a, ~ (lm_start to_ <= a < lm_start to_ + N * lm_es to_) /\ m1 a <> m a).
Proof.
  exists xsp, (xmp 1 xb2 100), (xmp 1 xb2 300), xb2, 4, xb2, xmem. do 2 eexists.
  split; [exact xvd|]. split; [apply xgood2|]. split; [apply xgood2|]. split; [reflexivity|]. split; [reflexivity|].
  split; [unfold Away; simpl; lia|]. split; [vm_compute; reflexivity|]. split; [vm_compute; reflexivity|].
  split; [eexists; split; [eexists; split; [vm_compute; reflexivity|reflexivity]|]; vm_compute; reflexivity|].
  split; [eexists; split; [eexists; split; [vm_compute; reflexivity|reflexivity]|]; vm_compute; reflexivity|].
  split; [eexists; split; [eexists; split; [vm_compute; reflexivity|reflexivity]|]; vm_compute; reflexivity|].
  exists 308. split; [simpl; lia|]. vm_compute. discriminate.
Qed.

(* ---------- C37: reuse of memory ---------- *)

(* If reuse is accepted for section n of a new layout and section nold of an old layout: every index of the
   range of the new section has in the new layout the offset it had in the old one. The size
   requested is that of the old section, so the old allocation suffices. Other sections are not changed. *)
Theorem C37_reuse_offsets : forall sp l n old nold b bold l', valid_dims (sp_dims sp) -> Built sp l -> Built sp old ->
  SectionBox l n b -> SectionBox old nold bold -> reuse_lex l n old nold = Ok (true, l') ->
  SubBox (sp_dims sp) b bold /\ SectionBox l' n bold /\ Built sp l' /\
  (forall i, InBox (sp_dims sp) i b -> exists o, offset_lex old nold i = Ok o /\ offset_lex l' n i = Ok o) /\
  (forall k i, 0 <= k -> k <> n -> offset_lex l' k i = offset_lex l k i) /\
  (forall N Nold, HasCount (sp_dims sp) b N -> HasCount (sp_dims sp) bold Nold -> lx_count l' = lx_count l - N + Nold).
Proof.
  intros sp l n old nold b bold l' Hd HB HB' HS HS' HR.
  assert (HBl : Built sp l') by exact (Built_reuse sp l n old nold l' HB HB' HR).
  destruct (section_entry sp l n b Hd HB HS) as [e [E1 [E2 [E3 [E4 E5]]]]].
  destruct (section_entry sp old nold bold Hd HB' HS') as [e' [F1 [F2 [F3 [F4 F5]]]]].
  apply reuse_ok in HR. destruct HR as [en [eo [R1 [R2 [R3 [R4 [R5 R6]]]]]]].
  rewrite E5 in R2. injection R2 as <-. rewrite F5 in R4. injection R4 as <-.
  assert (Hsub : SubBox (sp_dims sp) b bold).
  { rewrite <- E3, <- F3. destruct E4 as [S1 _], F4 as [S2 _]. destruct (le_range e) as [o1 b1], (le_range e') as [o2 b2]. simpl in *. subst o1 o2.
    eapply range_within_sound; eauto. }
  assert (HS'' : SectionBox l' n bold).
  { split; [lia|]. exists e'. split; auto. rewrite R6. simpl. apply upd_nth_same. lia. }
  conjs; auto.
  - intros i Hi. exists (boff (sp_dims sp) bold i). split; apply (offset_ok sp); auto.
  - intros k i Hk Hkn. rewrite R6. unfold offset_lex; simpl. rewrite upd_length. f_equal. f_equal.
    unfold aread. destruct (k <? 0); auto. rewrite upd_nth_other; auto. lia.
  - intros N Nold HN HNo. rewrite R6. simpl.
    destruct E4 as (_ & V1 & _ & V2 & _), F4 as (_ & U1 & _ & U2 & _). rewrite V2, U2.
    rewrite E3 in *. rewrite F3 in *. rewrite (vol_of_count _ _ _ Hd V1 HN), (vol_of_count _ _ _ Hd U1 HNo). lia.
Qed.

(* reuse is accepted exactly if the new range is part of the old one; otherwise the layout stays as it is *)
Theorem C37_reuse_decides : forall sp l n old nold b bold, valid_dims (sp_dims sp) -> Built sp l -> Built sp old ->
  SectionBox l n b -> SectionBox old nold bold ->
  (SubBox (sp_dims sp) b bold -> exists l', reuse_lex l n old nold = Ok (true, l')) /\
  (~ SubBox (sp_dims sp) b bold -> reuse_lex l n old nold = Ok (false, l)).
Proof.
  intros sp l n old nold b bold Hd HB HB' HS HS'.
  destruct (section_entry sp l n b Hd HB HS) as [e [E1 [E2 [E3 [E4 E5]]]]].
  destruct (section_entry sp old nold bold Hd HB' HS') as [e' [F1 [F2 [F3 [F4 F5]]]]].
  unfold reuse_lex. rewrite E2, F2. cbn [obind].
  assert (Es : (0 <=? n) && (n <? Z.of_nat (length (lx_e l))) = true) by (apply andb_true_intro; lia).
  rewrite Es. cbn [cassert]. destruct E4 as (S1 & V1 & _), F4 as (S2 & _).
  destruct (le_range e) as [o1 b1], (le_range e') as [o2 b2]. simpl in S1, S2, V1, E3, F3. rewrite S1, S2, E3, F3 in *.
  destruct (range_within_exact sp b bold Hd V1) as [W1 W2]. split; intros H.
  - rewrite W1 by auto. simpl. eauto.
  - rewrite W2 by auto. reflexivity.
Qed.

Example C37_example : exists l l', new_layout_lex [xr (mkBox (mkIdx 1 0 0) (mkIdx 2 2 0))] = Ok l /\
  reuse_lex l 0 xlay 0 = Ok (true, l') /\ offset_lex l 0 (mkIdx 1 1 0) = Ok 1 /\ offset_lex l' 0 (mkIdx 1 1 0) = Ok 4 /\
  offset_lex xlay 0 (mkIdx 1 1 0) = Ok 4.
Proof. do 2 eexists. repeat split; vm_compute; reflexivity. Qed.

Print Assumptions C34_create.
Print Assumptions C34_create_empty.
Print Assumptions C34_offsets.
Print Assumptions C34_rank.
Print Assumptions C34_section.
Print Assumptions C34_outside_refuted.
Print Assumptions C35_pack_step.
Print Assumptions C35_pack_any_chunks.
Print Assumptions C35_unpack_step.
Print Assumptions C35_roundtrip.
Print Assumptions C36_pack_agree.
Print Assumptions C36_unpack_agree.
Print Assumptions C36_copy_agree.
Print Assumptions C36_pack_refuted.
Print Assumptions C36_copy_refuted.
Print Assumptions C37_reuse_offsets.
Print Assumptions C37_reuse_decides.
