(* pack/unpack loops: both implementations walk over the enumeration of the range *)
From Coq Require Import ZArith List Bool Lia Sorted Permutation ZifyBool ZifyNat.
From Verif Require Import Base Model_Space Model_RangeList Model_Mem Model_Layout Spec_Space Spec_Type Spec_Layout
  Proof_Space Proof_Type Proof_Type2 Proof_RangeList5 Proof_Layout Proof_Layout2.
Import ListNotations.
Open Scope Z_scope.

(* reference: copy the elements of a list of indexes *)
Fixpoint run (cp : mem -> Z -> Z -> outcome mem) (es : Z) (A : index -> outcome Z) (l : list index)
    (m : mem) (buf size cnt : Z) : outcome (mem * list index * Z) :=
  match l with
  | [] => Ok (m, [], cnt)
  | i :: l' =>
    if size <? es then Ok (m, l, cnt) else
    do a <- A i;
    do m1 <- cp m a buf;
    run cp es A l' m1 (buf + es) (size - es) (cnt + 1)
  end.

Definition orel {X Y} (R : X -> Y -> Prop) (x : outcome X) (y : outcome Y) : Prop :=
  match x, y with
  | Ok a, Ok b => R a b
  | Abort, Abort | Panic, Panic | UB, UB | NoFuel, NoFuel => True
  | _, _ => False
  end.

(* the index reached, when [rest] remains *)
Definition AtRest (d : nat) (b : box) (i : index) (rest : list index) : Prop :=
  match rest with
  | [] => can d i = can d (b_to b)
  | j :: _ => can d i = j /\ InBox d i b /\ rest = lexfrom d b i
  end.

Definition RunRel (d : nat) (b : box) (x : mem * index * Z) (y : mem * list index * Z) : Prop :=
  fst (fst x) = fst (fst y) /\ snd x = snd y /\ AtRest d b (snd (fst x)) (snd (fst y)).

Lemma gen_loop_run fuel cp d b g : valid_dims d -> 0 < gm_es g -> (forall i, gm_off g (can d i) = gm_off g i) ->
  forall m i buf size cnt, InBox d i b -> 0 <= size < Z.of_nat fuel ->
  orel (RunRel d b) (gen_loop fuel cp d b g m i buf size cnt)
    (run cp (gm_es g) (fun i => omap (fun o => gm_start g + o * gm_es g) (gm_off g i)) (lexfrom d b i) m buf size cnt).
Proof.
  intros Hd He Hc. induction fuel; intros m i buf size cnt Hi Hf.
  - lia.
  - rewrite (lexfrom_step d b i Hd Hi). simpl.
    destruct (size <? gm_es g) eqn:E; destruct (size >=? gm_es g) eqn:E'; try lia.
    + simpl. unfold RunRel; simpl. conjs; auto. symmetry. apply (lexfrom_step d b i Hd Hi).
    + rewrite Hc. destruct (gm_off g i) as [o| | | |]; simpl; auto.
      destruct (cp m (gm_start g + o * gm_es g) buf) as [m1| | | |]; simpl; auto.
      destruct (next_lex d b i) as [[] j] eqn:En.
      * apply IHfuel; [eapply next_lex_in; eauto|lia].
      * simpl. unfold RunRel; simpl. auto.
Qed.

Lemma run_app cp es A l1 l2 : forall m buf size cnt,
  run cp es A (l1 ++ l2) m buf size cnt =
  do r <- run cp es A l1 m buf size cnt;
  match r with
  | (m1, [], c1) => run cp es A l2 m1 (buf + (c1 - cnt) * es) (size - (c1 - cnt) * es) c1
  | (m1, rest, c1) => Ok (m1, rest ++ l2, c1)
  end.
Proof.
  induction l1 as [|i l1 IH]; intros m buf size cnt.
  - simpl. f_equal; lia.
  - simpl. destruct (size <? es) eqn:E; [reflexivity|].
    destruct (A i) as [a| | | |]; simpl; auto.
    destruct (cp m a buf) as [m1| | | |]; simpl; auto.
    rewrite IH. destruct (run cp es A l1 m1 (buf + es) (size - es) (cnt + 1)) as [[[m2 [|r rs]] c]| | | |]; simpl; auto.
    f_equal; lia.
Qed.

Lemma row_S n x y z : row (S n) x y z = mkIdx x y z :: row n (x + 1) y z.
Proof. reflexivity. Qed.
Lemma plane_S n f0 t0 y z : plane (S n) f0 t0 y z = row (Z.to_nat (t0 - f0)) f0 y z ++ plane n f0 t0 (y + 1) z.
Proof. reflexivity. Qed.
Lemma cube_S n f0 t0 f1 t1 z : cube (S n) f0 t0 f1 t1 z = plane (Z.to_nat (t1 - f1)) f0 t0 f1 z ++ cube n f0 t0 f1 t1 (z + 1).
Proof. reflexivity. Qed.

(* state after copying up to count c *)
Definition PAt (es : Z) (s s' : pst) (m : mem) (c : Z) : Prop :=
  p_mem s' = m /\ p_cnt s' = c /\ p_buf s' = p_buf s + (c - p_cnt s) * es /\ p_size s' = p_size s - (c - p_cnt s) * es.

Section LexLoops.
Variables (cp : mem -> Z -> Z -> outcome mem) (es base s1 s2 : Z) (A : index -> outcome Z).
(* address of the element of an index *)
Variable P : Z -> Z -> Z -> Prop.
Hypothesis HA : forall x y z, P x y z -> A (mkIdx x y z) = Ok (base + (x + y * s1 + z * s2) * es).

Lemma lex_row_run n : forall s x y z, (forall x', x <= x' < x + Z.of_nat n -> P x' y z) ->
  p_ptr s = base + (x + y * s1 + z * s2) * es ->
  orel (fun q r => let '(s', stop, x') := q in let '(m', rest, c') := r in
          PAt es s s' m' c' /\ p_ptr s' = base + (x' + y * s1 + z * s2) * es /\
          x <= x' <= x + Z.of_nat n /\ rest = row (Z.to_nat (x + Z.of_nat n - x')) x' y z /\
          stop = (x' <? x + Z.of_nat n) /\ (stop = true -> p_size s' < es))
    (lex_row n cp es s x) (run cp es A (row n x y z) (p_mem s) (p_buf s) (p_size s) (p_cnt s)).
Proof.
  induction n; intros s x y z HP Hp.
  - simpl. unfold PAt. replace (Z.to_nat (x + Z.of_nat 0 - x)) with O by lia. conjs; auto; try reflexivity; try lia.
  - rewrite row_S. cbn [lex_row run]. destruct (p_size s <? es) eqn:E.
    + cbn [orel]. unfold PAt. replace (Z.to_nat (x + Z.of_nat (S n) - x)) with (S n) by lia. conjs; auto; try reflexivity; try lia.
    + rewrite (HA x y z) by (apply HP; lia). cbn [obind]. rewrite Hp.
      destruct (cp (p_mem s) (base + (x + y * s1 + z * s2) * es) (p_buf s)) as [m1| | | |]; simpl; auto.
      specialize (IHn (mkPst m1 (p_ptr s + es) (p_buf s + es) (p_size s - es) (p_cnt s + 1)) (x + 1) y z).
      simpl in IHn. rewrite Hp in IHn.
      specialize (IHn ltac:(intros; apply HP; lia) ltac:(lia)).
      destruct (lex_row n cp es _ (x + 1)) as [[[s' stop] x']| | | |],
        (run cp es A (row n (x + 1) y z) m1 (p_buf s + es) (p_size s - es) (p_cnt s + 1)) as [[[m' rest] c']| | | |];
        simpl in *; try contradiction; auto.
      destruct IHn as [[A1 [A2 [A3 A4]]] [B [C [D [E1 E2]]]]]. unfold PAt in *. simpl in *.
      conjs; auto; try lia.
      replace (x + Z.of_nat (S n) - x') with (x + 1 + Z.of_nat n - x') by lia. exact D.
Qed.

Lemma row_nil n x y z : (n = 0)%nat -> row n x y z = [].
Proof. intros ->. reflexivity. Qed.

Variables (from0 to0 : Z).
Hypothesis H0 : from0 < to0.

Lemma PAt_trans s s1' m1 c1 s2' m2 c2 : PAt es s s1' m1 c1 -> PAt es s1' s2' m2 c2 -> PAt es s s2' m2 c2.
Proof.
  unfold PAt. intros [A1 [A2 [A3 A4]]] [B1 [B2 [B3 B4]]]. conjs; auto; rewrite ?B3, ?B4, ?A3, ?A4, ?A2; lia.
Qed.

Lemma lex_plane_run n : forall s x y z, from0 <= x < to0 \/ n = O -> 
  (forall x' y', from0 <= x' < to0 -> y <= y' < y + Z.of_nat n -> P x' y' z) ->
  ((0 < n)%nat -> p_ptr s = base + (x + y * s1 + z * s2) * es) ->
  let L := match n with O => [] | S n' => row (Z.to_nat (to0 - x)) x y z ++ plane n' from0 to0 (y + 1) z end in
  orel (fun (q : pst * bool * Z * Z) (r : mem * list index * Z) => let '(s', stop, x', y') := q in let '(m', rest, c') := r in
          PAt es s s' m' c' /\
          (if stop then p_size s' < es /\ from0 <= x' < to0 /\ y <= y' < y + Z.of_nat n /\
              rest = row (Z.to_nat (to0 - x')) x' y' z ++ plane (Z.to_nat (y + Z.of_nat n - y' - 1)) from0 to0 (y' + 1) z
           else rest = [] /\ ((0 < n)%nat -> x' = from0 /\ y' = y + Z.of_nat n /\
              p_ptr s' = base + (from0 + (y + Z.of_nat n) * s1 + z * s2) * es)))
    (lex_plane n cp es from0 to0 (s1 - (to0 - from0)) s x y)
    (run cp es A L (p_mem s) (p_buf s) (p_size s) (p_cnt s)).
Proof.
  induction n; intros s x y z Hx HP Hp L.
  - simpl. unfold PAt. conjs; auto; lia.
  - destruct Hx as [Hx|Hx]; [|discriminate]. specialize (Hp ltac:(lia)).
    unfold L. cbn [lex_plane]. rewrite run_app.
    assert (R := lex_row_run (Z.to_nat (to0 - x)) s x y z ltac:(intros; apply HP; lia) Hp).
    destruct (lex_row (Z.to_nat (to0 - x)) cp es s x) as [[[sa stop] x']| | | |],
      (run cp es A (row (Z.to_nat (to0 - x)) x y z) (p_mem s) (p_buf s) (p_size s) (p_cnt s)) as [[[ma rest] ca]| | | |];
      cbn [obind orel] in *; try contradiction; auto.
    destruct R as [R1 [R2 [R3 [R4 [R5 R6]]]]].
    rewrite Z2Nat.id in * by lia. replace (x + (to0 - x) - x') with (to0 - x') in R4 by lia.
    destruct stop.
    + destruct rest as [|r rs].
      { exfalso. symmetry in R4. apply length_zero_iff_nil in R4. unfold row in R4. rewrite map_length, zseq_length in R4. lia. }
      cbn [orel]. conjs; auto; try lia. rewrite R4.
      replace (Z.to_nat (y + Z.of_nat (S n) - y - 1)) with n by lia. reflexivity.
    + assert (E : x' = to0) by lia. rewrite E in *. rewrite Z.sub_diag in R4. simpl in R4. rewrite R4.
      pose (sb := skip sa ((s1 - (to0 - from0)) * es)).
      assert (Hb : p_ptr sb = base + (from0 + (y + 1) * s1 + z * s2) * es).
      { unfold sb; simpl. rewrite R2. ring. }
      destruct n as [|n'].
      * cbn [lex_plane plane zseq flat_map run orel]. split; [destruct R1 as [Q1 [Q2 [Q3 Q4]]]; unfold PAt; simpl; auto|].
        split; [reflexivity|]. intros _. conjs; [reflexivity|lia|]. fold sb. rewrite Hb. f_equal; f_equal; lia.
      * specialize (IHn sb from0 (y + 1) z ltac:(left; lia) ltac:(intros; apply HP; lia) ltac:(auto)).
        cbn zeta in IHn. rewrite <- plane_S in IHn.
        destruct R1 as [Q1 [Q2 [Q3 Q4]]].
        replace (p_buf s + (ca - p_cnt s) * es) with (p_buf sb) by (unfold sb; simpl; lia).
        replace (p_size s - (ca - p_cnt s) * es) with (p_size sb) by (unfold sb; simpl; lia).
        replace ma with (p_mem sb) by (unfold sb; simpl; auto).
        replace ca with (p_cnt sb) by (unfold sb; simpl; auto).
        fold sb.
        destruct (lex_plane (S n') cp es from0 to0 (s1 - (to0 - from0)) sb from0 (y + 1)) as [[[[sc stop] xc] yc]| | | |],
          (run cp es A (plane (S n') from0 to0 (y + 1) z) (p_mem sb) (p_buf sb) (p_size sb) (p_cnt sb)) as [[[mc restc] cc]| | | |];
          cbn [orel] in *; try contradiction; auto.
        destruct IHn as [I1 I2]. split.
        { eapply PAt_trans; [|exact I1]. unfold PAt, sb; simpl. conjs; auto; lia. }
        destruct stop.
        -- destruct I2 as [J1 [J2 [J3 J4]]]. conjs; auto; try lia. rewrite J4. f_equal. f_equal. lia.
        -- destruct I2 as [J1 J2]. split; auto. intros _. destruct (J2 ltac:(lia)) as [K1 [K2 K3]]. conjs; auto; try lia.
Qed.

Variables (from1 to1 : Z).
Hypothesis H1 : from1 < to1.

Lemma lex_cube_run n : forall s x y z, from0 <= x < to0 \/ n = O -> from1 <= y < to1 \/ n = O ->
  (forall x' y' z', from0 <= x' < to0 -> from1 <= y' < to1 -> z <= z' < z + Z.of_nat n -> P x' y' z') ->
  ((0 < n)%nat -> p_ptr s = base + (x + y * s1 + z * s2) * es) ->
  let L := match n with O => [] | S n' =>
     (row (Z.to_nat (to0 - x)) x y z ++ plane (Z.to_nat (to1 - y - 1)) from0 to0 (y + 1) z) ++ cube n' from0 to0 from1 to1 (z + 1) end in
  orel (fun (q : pst * bool * Z * Z * Z) (r : mem * list index * Z) => let '(s', stop, x', y', z') := q in let '(m', rest, c') := r in
          PAt es s s' m' c' /\
          (if stop then p_size s' < es /\ from0 <= x' < to0 /\ from1 <= y' < to1 /\ z <= z' < z + Z.of_nat n /\
              rest = (row (Z.to_nat (to0 - x')) x' y' z' ++ plane (Z.to_nat (to1 - y' - 1)) from0 to0 (y' + 1) z') ++
                     cube (Z.to_nat (z + Z.of_nat n - z' - 1)) from0 to0 from1 to1 (z' + 1)
           else rest = [] /\ z' = z + Z.of_nat n))
    (lex_cube n cp es from0 to0 from1 to1 (s1 - (to0 - from0)) (s2 - s1 * (to1 - from1)) s x y z)
    (run cp es A L (p_mem s) (p_buf s) (p_size s) (p_cnt s)).
Proof.
  induction n; intros s x y z Hx Hy HP Hp L.
  - simpl. unfold PAt. conjs; auto; lia.
  - destruct Hx as [Hx|Hx]; [|discriminate]. destruct Hy as [Hy|Hy]; [|discriminate]. specialize (Hp ltac:(lia)).
    unfold L. cbn [lex_cube]. rewrite run_app.
    assert (Et : Z.to_nat (to1 - y) = S (Z.to_nat (to1 - y - 1))) by lia.
    assert (R := lex_plane_run (Z.to_nat (to1 - y)) s x y z ltac:(left; lia) ltac:(intros; apply HP; lia) ltac:(auto)).
    cbn zeta in R.
    replace (match Z.to_nat (to1 - y) with O => [] | S n' => row (Z.to_nat (to0 - x)) x y z ++ plane n' from0 to0 (y + 1) z end)
      with (row (Z.to_nat (to0 - x)) x y z ++ plane (Z.to_nat (to1 - y - 1)) from0 to0 (y + 1) z) in R by now rewrite Et.
    destruct (lex_plane (Z.to_nat (to1 - y)) cp es from0 to0 (s1 - (to0 - from0)) s x y) as [[[[sa stop] x'] y']| | | |],
      (run cp es A (row (Z.to_nat (to0 - x)) x y z ++ plane (Z.to_nat (to1 - y - 1)) from0 to0 (y + 1) z)
          (p_mem s) (p_buf s) (p_size s) (p_cnt s)) as [[[ma rest] ca]| | | |];
      cbn [obind orel] in *; try contradiction; auto.
    destruct R as [R1 R2]. destruct stop.
    + destruct R2 as [R2 [R3 [R4 R5]]]. destruct rest as [|r rs].
      { exfalso. symmetry in R5. apply app_eq_nil in R5. destruct R5 as [R5 _].
        apply length_zero_iff_nil in R5. unfold row in R5. rewrite map_length, zseq_length in R5. lia. }
      cbn [orel]. conjs; auto; try lia. rewrite R5.
      replace (Z.to_nat (y + Z.of_nat (Z.to_nat (to1 - y)) - y' - 1)) with (Z.to_nat (to1 - y' - 1)) by lia.
      replace (Z.to_nat (z + Z.of_nat (S n) - z - 1)) with n by lia. reflexivity.
    + destruct R2 as [R2 R3]. destruct (R3 ltac:(lia)) as [-> [-> R4]]. rewrite R2.
      pose (sb := skip sa ((s2 - s1 * (to1 - from1)) * es)).
      assert (Hb : p_ptr sb = base + (from0 + from1 * s1 + (z + 1) * s2) * es).
      { unfold sb; simpl. rewrite R4. rewrite Z2Nat.id by lia. ring. }
      destruct n as [|n'].
      * cbn [lex_cube cube zseq flat_map run orel]. split; [destruct R1 as [Q1 [Q2 [Q3 Q4]]]; unfold PAt; simpl; auto|].
        split; [reflexivity|lia].
      * specialize (IHn sb from0 from1 (z + 1) ltac:(left; lia) ltac:(left; lia) ltac:(intros; apply HP; lia) ltac:(auto)).
        cbn zeta in IHn.
        replace ((row (Z.to_nat (to0 - from0)) from0 from1 (z + 1) ++ plane (Z.to_nat (to1 - from1 - 1)) from0 to0 (from1 + 1) (z + 1)) ++
           cube n' from0 to0 from1 to1 (z + 1 + 1)) with (cube (S n') from0 to0 from1 to1 (z + 1)) in IHn.
        2:{ rewrite cube_S. f_equal. replace (Z.to_nat (to1 - from1)) with (S (Z.to_nat (to1 - from1 - 1))) by lia. apply plane_S. }
        destruct R1 as [Q1 [Q2 [Q3 Q4]]].
        replace (p_buf s + (ca - p_cnt s) * es) with (p_buf sb) by (unfold sb; simpl; lia).
        replace (p_size s - (ca - p_cnt s) * es) with (p_size sb) by (unfold sb; simpl; lia).
        replace ma with (p_mem sb) by (unfold sb; simpl; auto).
        replace ca with (p_cnt sb) by (unfold sb; simpl; auto).
        fold sb.
        destruct (lex_cube (S n') cp es from0 to0 from1 to1 (s1 - (to0 - from0)) (s2 - s1 * (to1 - from1)) sb from0 from1 (z + 1)) as [[[[[sc stop] xc] yc] zc]| | | |],
          (run cp es A (cube (S n') from0 to0 from1 to1 (z + 1)) (p_mem sb) (p_buf sb) (p_size sb) (p_cnt sb)) as [[[mc restc] cc]| | | |];
          cbn [orel] in *; try contradiction; auto.
        destruct IHn as [I1 I2]. split.
        { eapply PAt_trans; [|exact I1]. unfold PAt, sb; simpl. conjs; auto; lia. }
        destruct stop.
        -- destruct I2 as [J1 [J2 [J3 [J4 J5]]]]. conjs; auto; try lia. rewrite J5. f_equal. f_equal. lia.
        -- destruct I2 as [J1 J2]. split; auto. lia.
Qed.
End LexLoops.
