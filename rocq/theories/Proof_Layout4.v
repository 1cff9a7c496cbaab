(* pack_lex/unpack_lex and the generic versions against the reference *)
From Coq Require Import ZArith List Bool Lia Sorted Permutation ZifyBool ZifyNat.
From Verif Require Import Base Model_Space Model_RangeList Model_Mem Model_Layout Spec_Space Spec_Type Spec_Layout
  Proof_Space Proof_Type Proof_Type2 Proof_RangeList5 Proof_Layout Proof_Layout2 Proof_Layout3.
Import ListNotations.
Open Scope Z_scope.

Definition adr (d : nat) (mp : lmap) (B : box) (i : index) : Z := lm_start mp + boff d B i * lm_es mp.

Lemma within_ok sp r q : valid_dims (sp_dims sp) -> r_space r = Some sp -> r_space q = Some sp ->
  NonEmpty (sp_dims sp) (r_box r) -> SubBox (sp_dims sp) (r_box r) (r_box q) -> range_within_range r q = Ok true.
Proof.
  intros Hd E1 E2 Hn Hs. destruct r as [o b], q as [o' b']. simpl in *. subst.
  apply range_within_exact; auto.
Qed.

Lemma index_isEqual_spec d i j : valid_dims d -> (index_isEqual d i j = true <-> SameIndex d i j).
Proof.
  unfold index_isEqual, SameIndex. destruct (i0 i =? i0 j) eqn:E0; simpl; [|split; intros; [discriminate|lia]].
  intros [->|[->| ->]]; simpl; try lia.
  - destruct (i1 i =? i1 j) eqn:E1; simpl; split; intros; try discriminate; try lia; auto.
  - destruct (i1 i =? i1 j) eqn:E1, (i2 i =? i2 j) eqn:E2; simpl; split; intros; try discriminate; try lia; auto.
Qed.

Lemma InBox_not_to d i b : InBox d i b -> ~ SameIndex d i (b_to b).
Proof. unfold InBox, SameIndex. lia. Qed.

Section Maps.
Variables (sp : space) (mp : lmap) (B : box) (N : Z) (r : range).
Local Notation d := (sp_dims sp).
Local Notation b := (r_box r).
Hypothesis Hd : valid_dims d.
Hypothesis HG : GoodMap sp mp B N.
Hypothesis Hr : r_space r = Some sp.
Hypothesis Hne : NonEmpty d b.
Hypothesis Hsub : SubBox d b (r_box (lm_req mp)).

Local Notation off := (offset_lex (lm_layout mp) (lm_sec mp)).
Definition A0 (i : index) : outcome Z := omap (fun o => lm_start mp + o * lm_es mp) (off i).

Lemma b_in_B : SubBox d b B.
Proof. destruct HG as (_ & _ & _ & _ & _ & H). intros i Hi. apply H, Hsub, Hi. Qed.

Lemma A0_ok i : InBox d i B -> A0 i = Ok (adr d mp B i).
Proof.
  intros Hi. destruct HG as (G1 & G2 & _). unfold A0. rewrite (offset_ok sp _ _ B i Hd G1 G2 Hi). reflexivity.
Qed.

Lemma off_can i : InBox d i B -> off (can d i) = off i.
Proof.
  intros Hi. destruct HG as (G1 & G2 & _). rewrite !(offset_ok sp _ _ B); auto. now rewrite boff_can. now apply InBox_can.
Qed.

(* offset_lex only looks at the used dimensions *)
Lemma off_can' i : off (can d i) = off i.
Proof.
  destruct HG as (G1 & G2 & _). destruct (Built_wf sp _ Hd G1) as [W _]. unfold offset_lex.
  destruct (aread (lx_e (lm_layout mp)) (lm_sec mp)); simpl; auto. rewrite W.
  replace (lexoff d a (can d i)) with (lexoff d a i); auto.
  unfold lexoff, can; simpl. destruct (Nat.ltb 1 d), (Nat.ltb 2 d); reflexivity.
Qed.

Lemma gen_run cp m i buf size : InBox d i b -> 0 <= size ->
  orel (RunRel d b) (gen_loop (S (Z.to_nat size)) cp d b (gmap_of mp) m i buf size 0)
    (run cp (lm_es mp) A0 (lexfrom d b i) m buf size 0).
Proof.
  intros Hi Hs. destruct HG as (_ & _ & _ & He & _).
  apply (gen_loop_run (S (Z.to_nat size)) cp d b (gmap_of mp)); auto; try lia.
  intros j. apply off_can'.
Qed.

Hypothesis HE : SameExtent d (lm_layout mp) B.

Lemma first_entry : exists e, aread (lx_e (lm_layout mp)) 0 = Ok e /\ le_s0 e = 1 /\
  le_s1 e = (if Nat.ltb 1 d then w0 B else 0) /\ le_s2 e = (if Nat.ltb 2 d then w0 B * w1 B else 0) /\
  (if Nat.ltb 1 d then le_s0 e <=? le_s1 e else true) = true /\
  (if Nat.ltb 2 d then le_s1 e <=? le_s2 e else true) = true.
Proof.
  destruct HG as (G1 & G2 & _). destruct (Built_wf sp _ Hd G1) as [W [WE [WN _]]].
  destruct (lx_e (lm_layout mp)) as [|e es] eqn:EL; [congruence|]. exists e.
  assert (We : WfE sp e) by (inversion WE; auto). destruct We as (V1 & V2 & V3 & V4 & V5 & V6 & V7).
  assert (S0 : SectionBox (lm_layout mp) 0 (r_box (le_range e))).
  { split; [lia|]. exists e. rewrite EL. auto. }
  destruct (HE _ S0) as [X0 X1]. fold (w0 B) in X0. fold (w1 B) in X1. fold (w0 (r_box (le_range e))) in X0. fold (w1 (r_box (le_range e))) in X1.
  destruct (nonempty_pos d _ V2) as [P0 [P1 P2]].
  split; [reflexivity|]. split; auto. rewrite V5, V6, V7.
  destruct (Nat.ltb 1 d) eqn:E1; [apply Nat.ltb_lt in E1; specialize (X0 E1); specialize (P1 E1)|];
  (destruct (Nat.ltb 2 d) eqn:E2; [apply Nat.ltb_lt in E2; specialize (X1 E2); specialize (P2 E2)|]);
  rewrite ?X0, ?X1; conjs; auto; try lia.
  - nia.
Qed.

Lemma lex_run cp m i buf size : InBox d i b -> 0 <= size ->
  orel (RunRel d b) (lex_loop cp mp r m i buf size) (run cp (lm_es mp) A0 (lexfrom d b i) m buf size 0).
Proof.
  intros Hi Hs. destruct first_entry as [e [E1 [E2 [E3 [E4 [E5 E6]]]]]].
  assert (HG' := HG). destruct HG' as (G1 & G2 & _ & He & Hq & _). destruct (Built_wf sp _ Hd G1) as [W _].
  unfold lex_loop. rewrite E1. cbn [obind]. rewrite W, E5, E6, E2. cbn [cassert Z.eqb].
  rewrite (within_ok sp r (lm_req mp)) by auto. cbn [obind cassert].
  assert (HiB : InBox d i B) by (apply b_in_B; auto).
  rewrite (offset_ok sp _ _ B i Hd G1 G2 HiB). cbn [obind].
  rewrite E3, E4.
  assert (HA : forall base s1 s2, (forall x y z, InBox d (mkIdx x y z) B -> boff d B (mkIdx x y z) = x + y * s1 + z * s2 + base) ->
     forall x y z, InBox d (mkIdx x y z) B -> A0 (mkIdx x y z) = Ok (lm_start mp + base * lm_es mp + (x + y * s1 + z * s2) * lm_es mp)).
  { intros base s1 s2 H x y z K. rewrite A0_ok; auto. unfold adr. rewrite H; auto. f_equal. ring. }
  destruct Hi as [Hi0 [Hi1 Hi2]]. assert (HB := b_in_B). destruct b as [[f0 f1 f2] [t0 t1 t2]] eqn:Eb, i as [x y z]. simpl in Hi0, Hi1, Hi2.
  destruct Hd as [D|[D|D]]; rewrite D in *; cbn [Nat.ltb Nat.leb i0 i1 i2 b_from b_to] in *.
  - (* 1d *)
    assert (G := lex_cube_run cp (lm_es mp) (lm_start mp + (- i0 (b_from B)) * lm_es mp) 0 0 A0 (fun x y z => InBox 1 (mkIdx x y z) B)
      (HA (- i0 (b_from B)) 0 0 ltac:(intros; unfold boff; simpl; lia)) f0 t0 ltac:(lia) 0 1 ltac:(lia)
      (Z.to_nat (1 - 0)) (mkPst m (lm_start mp + boff 1 B (mkIdx x y z) * lm_es mp) buf size 0) x 0 0
      ltac:(left; lia) ltac:(left; lia)
      ltac:(intros; apply HB; unfold InBox; simpl; lia)
      ltac:(intros; simpl; unfold boff; simpl; lia)).
    cbn zeta in G. change (Z.to_nat (1 - 0)) with 1%nat in *. cbn [p_mem p_buf p_size p_cnt] in G.
    match type of G with orel _ _ (run _ _ _ ?l _ _ _ _) => replace l with (lexfrom 1 (mkBox (mkIdx f0 f1 f2) (mkIdx t0 t1 t2)) (mkIdx x y z)) in G end.
    2:{ unfold lexfrom, can; simpl. now rewrite !app_nil_r. }
    destruct (lex_cube _ _ _ _ _ _ _ _ _ _ _ _ _) as [[[[[s' stop] x'] y'] z']| | | |],
      (run _ _ _ _ _ _ _ _) as [[[m' rest] c']| | | |]; cbn [orel obind] in *; try contradiction; auto.
    destruct G as [[P1 [P2 _]] G]. destruct stop.
    + destruct G as [K1 [K2 [K3 [K4 K5]]]].
      assert (y' = 0) by lia. assert (z' = 0) by lia. subst y' z'.
      unfold RunRel; cbn [fst snd]. split; [auto|split; [auto|]]. unfold AtRest. rewrite K5.
      assert (S : exists n, Z.to_nat (t0 - x') = S n) by (exists (Z.to_nat (t0 - x' - 1)); lia).
      destruct S as [n S]. rewrite S. rewrite row_S. simpl.
      conjs; auto. unfold InBox; simpl; lia.
      unfold lexfrom, can; simpl. rewrite S, row_S. now rewrite !app_nil_r.
    + destruct G as [K1 K2]. unfold RunRel; cbn [fst snd]. split; [auto|split; [auto|]]. rewrite K1. unfold AtRest, can; simpl. reflexivity.
  - (* 2d *)
    assert (G := lex_cube_run cp (lm_es mp) (lm_start mp + (- i0 (b_from B) - i1 (b_from B) * w0 B) * lm_es mp) (w0 B) 0 A0 (fun x y z => InBox 2 (mkIdx x y z) B)
      (HA (- i0 (b_from B) - i1 (b_from B) * w0 B) (w0 B) 0 ltac:(intros; unfold boff; simpl; lia)) f0 t0 ltac:(lia) f1 t1 ltac:(lia)
      (Z.to_nat (1 - 0)) (mkPst m (lm_start mp + boff 2 B (mkIdx x y z) * lm_es mp) buf size 0) x y 0
      ltac:(left; lia) ltac:(left; lia)
      ltac:(intros; apply HB; unfold InBox; simpl; lia)
      ltac:(intros; simpl; unfold boff; simpl; ring)).
    cbn zeta in G. change (Z.to_nat (1 - 0)) with 1%nat in *. cbn [p_mem p_buf p_size p_cnt] in G.
    match type of G with orel _ _ (run _ _ _ ?l _ _ _ _) => replace l with (lexfrom 2 (mkBox (mkIdx f0 f1 f2) (mkIdx t0 t1 t2)) (mkIdx x y z)) in G end.
    2:{ unfold lexfrom, can; simpl. now rewrite !app_nil_r. }
    destruct (lex_cube _ _ _ _ _ _ _ _ _ _ _ _ _) as [[[[[s' stop] x'] y'] z']| | | |],
      (run _ _ _ _ _ _ _ _) as [[[m' rest] c']| | | |]; cbn [orel obind] in *; try contradiction; auto.
    destruct G as [[P1 [P2 _]] G]. destruct stop.
    + destruct G as [K1 [K2 [K3 [K4 K5]]]].
      assert (z' = 0) by lia. subst z'.
      unfold RunRel; cbn [fst snd]. split; [auto|split; [auto|]]. unfold AtRest. rewrite K5.
      assert (S : exists n, Z.to_nat (t0 - x') = S n) by (exists (Z.to_nat (t0 - x' - 1)); lia).
      destruct S as [n S]. rewrite S. rewrite row_S. simpl.
      conjs; auto. unfold InBox; simpl; lia.
      unfold lexfrom, can; simpl. rewrite S, row_S. now rewrite !app_nil_r.
    + destruct G as [K1 K2]. unfold RunRel; cbn [fst snd]. split; [auto|split; [auto|]]. rewrite K1. unfold AtRest, can; simpl. reflexivity.
  - (* 3d *)
    assert (G := lex_cube_run cp (lm_es mp) (lm_start mp + (- i0 (b_from B) - i1 (b_from B) * w0 B - i2 (b_from B) * (w0 B * w1 B)) * lm_es mp) (w0 B) (w0 B * w1 B) A0 (fun x y z => InBox 3 (mkIdx x y z) B)
      (HA (- i0 (b_from B) - i1 (b_from B) * w0 B - i2 (b_from B) * (w0 B * w1 B)) (w0 B) (w0 B * w1 B) ltac:(intros; unfold boff; simpl; lia)) f0 t0 ltac:(lia) f1 t1 ltac:(lia)
      (Z.to_nat (t2 - z)) (mkPst m (lm_start mp + boff 3 B (mkIdx x y z) * lm_es mp) buf size 0) x y z
      ltac:(left; lia) ltac:(left; lia)
      ltac:(intros; apply HB; unfold InBox; simpl; lia)
      ltac:(intros; simpl; unfold boff; simpl; ring)).
    cbn zeta in G. cbn [p_mem p_buf p_size p_cnt] in G.
    match type of G with orel _ _ (run _ _ _ ?l _ _ _ _) => replace l with (lexfrom 3 (mkBox (mkIdx f0 f1 f2) (mkIdx t0 t1 t2)) (mkIdx x y z)) in G end.
    2:{ unfold lexfrom, can; simpl. replace (Z.to_nat (t2 - z)) with (S (Z.to_nat (t2 - z - 1))) by lia. now rewrite app_assoc. }
    destruct (lex_cube _ _ _ _ _ _ _ _ _ _ _ _ _) as [[[[[s' stop] x'] y'] z']| | | |],
      (run _ _ _ _ _ _ _ _) as [[[m' rest] c']| | | |]; cbn [orel obind] in *; try contradiction; auto.
    destruct G as [[P1 [P2 _]] G]. destruct stop.
    + destruct G as [K1 [K2 [K3 [K4 K5]]]].
      unfold RunRel; cbn [fst snd]. split; [auto|split; [auto|]]. unfold AtRest. rewrite K5.
      assert (S : exists n, Z.to_nat (t0 - x') = S n) by (exists (Z.to_nat (t0 - x' - 1)); lia).
      destruct S as [n S]. rewrite S. rewrite row_S. simpl.
      conjs; auto. unfold InBox; simpl; lia.
      unfold lexfrom, can; simpl. rewrite S, row_S. simpl. rewrite <- !app_assoc. do 4 f_equal. lia.
    + destruct G as [K1 K2]. unfold RunRel; cbn [fst snd]. split; [auto|split; [auto|]]. rewrite K1. unfold AtRest, can; simpl. f_equal. lia.
Qed.
End Maps.
