(* From the closed form to the specification *)
From Coq Require Import ZArith List Bool Lia Permutation Sorted ZifyBool ZifyNat.
From Verif Require Import Base ListFacts Model_Space Spec_Space Model_RangeList Spec_RangeList Proof_RangeList Proof_RangeList4 Proof_RangeList5
  Model_Partitioner Spec_Partitioner Proof_Partitioner Proof_Partitioner2 Model_Group Proof_Group Proof_Group3 Model_Transition Spec_Transition
  Proof_Trans1 Proof_Trans2.
Import ListNotations.
Open Scope Z_scope.

(* segments depend only on the sorted positions *)
Fixpoint segsZ (ps : list Z) : list (Z * Z) :=
  match ps with
  | b :: l' => match l' with nb :: _ => if nb >? b then (b, nb) :: segsZ l' else segsZ l' | [] => [] end
  | [] => []
  end.
Lemma segs_segsZ sl : segs sl = segsZ (map bd_b sl).
Proof.
  induction sl as [|b sl IH]; auto. destruct sl as [|nb sl]; auto.
  change (segs (b :: nb :: sl)) with (if bd_b nb >? bd_b b then (bd_b b, bd_b nb) :: segs (nb :: sl) else segs (nb :: sl)).
  rewrite IH. reflexivity.
Qed.

Lemma segsZ_cons b nb l : segsZ (b :: nb :: l) = if nb >? b then (b, nb) :: segsZ (nb :: l) else segsZ (nb :: l).
Proof. reflexivity. Qed.

Lemma segsZ_in ps a b : StronglySorted Z.le ps -> In (a, b) (segsZ ps) -> a < b /\ In a ps /\ In b ps /\ (forall p, In p ps -> p <= a \/ b <= p).
Proof.
  induction ps as [|p ps IH]; intros S H; [destruct H|]. destruct ps as [|q ps]; [destruct H|]. rewrite segsZ_cons in H.
  inversion S as [|? ? S' F]; subst. rewrite Forall_forall in F. pose proof (F q (or_introl eq_refl)).
  assert (K : In (a, b) (segsZ (q :: ps)) -> a < b /\ In a (p :: q :: ps) /\ In b (p :: q :: ps) /\ (forall r, In r (p :: q :: ps) -> r <= a \/ b <= r)).
  { intros Hin. destruct (IH S' Hin) as [J1 [J2 [J3 J4]]]. split; auto. split; [right; auto|]. split; [right; auto|].
    intros r [->|Hr]; [pose proof (F a J2); lia|auto]. }
  destruct (q >? p) eqn:E; auto. destruct H as [H|H]; auto. injection H as <- <-. split; [lia|]. split; [left; auto|]. split; [right; left; auto|].
  intros r [->|Hr]; [lia|]. inversion S' as [|? ? S'' F']; subst. rewrite Forall_forall in F'. destruct Hr as [->|Hr]; [lia|specialize (F' r Hr); lia].
Qed.

Lemma segsZ_ge ps a b p : StronglySorted Z.le (p :: ps) -> In (a, b) (segsZ (p :: ps)) -> p <= a.
Proof.
  intros S H. destruct (segsZ_in _ _ _ S H) as [_ [[->|Ha] _]]; [lia|]. inversion S; subst. rewrite Forall_forall in H3. auto.
Qed.

Lemma segsZ_sorted ps : StronglySorted Z.le ps -> StronglySorted (fun s s' => snd s <= fst s') (segsZ ps).
Proof.
  induction ps as [|p ps IH]; intros S; [constructor|]. destruct ps as [|q ps]; [constructor|]. rewrite segsZ_cons.
  inversion S as [|? ? S' F]; subst. destruct (q >? p); auto. constructor; auto. apply Forall_forall. intros [a b] Hab. simpl.
  eapply segsZ_ge; eauto.
Qed.

Lemma segsZ_hit q x : forall ps p, StronglySorted Z.le (p :: ps) -> p <= x -> In q (p :: ps) -> x < q ->
  exists a b, In (a, b) (segsZ (p :: ps)) /\ a <= x < b.
Proof.
  induction ps as [|r ps IH]; intros p S Hp Hq Hx.
  { destruct Hq as [->|[]]. lia. }
  inversion S as [|? ? S' F]; subst. rewrite segsZ_cons. destruct Hq as [->|Hq]; [lia|].
  destruct (Z_le_dec r x) as [Hr|Hr].
  - destruct (IH r S' Hr Hq Hx) as [a [b [H1 H2]]]. exists a, b. split; auto. destruct (r >? p); [right|]; auto.
  - exists p, r. assert (E : r >? p = true) by lia. rewrite E. split; [left; auto|lia].
Qed.

Lemma sorted_first (ps : list Z) p : StronglySorted Z.le ps -> In p ps -> exists h t, ps = h :: t /\ h <= p.
Proof.
  intros S H. destruct ps as [|h t]; [destruct H|]. exists h, t. split; auto. inversion S; subst. rewrite Forall_forall in H3.
  destruct H as [->|H]; [lia|auto].
Qed.

Lemma sorted_le_unique : forall l l', StronglySorted Z.le l -> StronglySorted Z.le l' -> Permutation l l' -> l = l'.
Proof.
  induction l as [|a l IH]; intros l' S S' P.
  - apply Permutation_nil in P. auto.
  - destruct l' as [|b l']; [apply Permutation_sym, Permutation_nil in P; discriminate|].
    inversion S as [|? ? S1 F1]; subst. inversion S' as [|? ? S2 F2]; subst. rewrite Forall_forall in F1, F2.
    assert (a = b).
    { assert (Ha : In a (b :: l')) by (apply (Permutation_in _ P); left; auto).
      assert (Hb : In b (a :: l)) by (apply (Permutation_in _ (Permutation_sym P)); left; auto).
      destruct Ha as [->|Ha]; auto. destruct Hb as [->|Hb]; auto. specialize (F1 _ Hb). specialize (F2 _ Ha). lia. }
    subst b. f_equal. apply IH; auto. eapply Permutation_cons_inv; eauto.
Qed.

(* operations over an index *)
Definition hit (x : Z) (b : box) : bool := (i0 (b_from b) <=? x) && (x <? i0 (b_to b)).

Lemma filter_false {A} (l : list A) : filter (fun _ => false) l = [].
Proof. induction l; auto. Qed.

Lemma flat_hit {A} (bx : A -> box) (P : A -> bool) (f : Z * Z -> list A) x :
  (forall s e, In e (f s) -> bx e = box1 (fst s) (snd s)) ->
  forall S, StronglySorted (fun s s' => snd s <= fst s') S -> (forall s, In s S -> fst s < snd s) ->
  (forall s, In s S -> fst s <= x < snd s -> filter (fun e => hit x (bx e) && P e) (flat_map f S) = filter P (f s)) /\
  ((forall s, In s S -> ~ (fst s <= x < snd s)) -> filter (fun e => hit x (bx e) && P e) (flat_map f S) = []).
Proof.
  intros Hf. assert (H1 : forall s, filter (fun e => hit x (bx e) && P e) (f s) = if (fst s <=? x) && (x <? snd s) then filter P (f s) else []).
  { intros s. assert (E : forall e, In e (f s) -> hit x (bx e) = (fst s <=? x) && (x <? snd s)).
    { intros e He. unfold hit. rewrite (Hf s e He). reflexivity. }
    destruct ((fst s <=? x) && (x <? snd s)).
    - apply filter_ext_in. intros e He. rewrite (E e He). auto.
    - rewrite (filter_ext_in _ (fun _ => false)); [apply filter_false|]. intros e He. rewrite (E e He). auto. }
  induction S as [|s S IH]; intros So Hlt.
  - split; [intros s []|auto].
  - inversion So as [|? ? So' F]; subst. rewrite Forall_forall in F.
    destruct (IH So' ltac:(intros; apply Hlt; right; auto)) as [J1 J2]. cbn [flat_map]. rewrite filter_app, H1. split.
    + intros s' [->|Hs'] Hx.
      * assert (E : (fst s' <=? x) && (x <? snd s') = true) by lia. rewrite E. rewrite J2; [apply app_nil_r|].
        intros s2 H2. specialize (F s2 H2). lia.
      * pose proof (F s' Hs'). assert (E : (fst s <=? x) && (x <? snd s) = false) by lia. rewrite E. simpl. apply J1; auto.
    + intros H. assert (E : (fst s <=? x) && (x <? snd s) = false) by (specialize (H s (or_introl eq_refl)); lia). rewrite E. simpl.
      apply J2. intros s' Hs'. apply H; right; auto.
Qed.

Lemma filter_map_len {A B} (h : A -> B) (P : B -> bool) l : length (filter (fun a => P (h a)) l) = length (filter P (map h l)).
Proof. induction l as [|a l IH]; simpl; auto. destruct (P (h a)); simpl; auto. Qed.

(* facts given by Good1d *)
Section G.
  Variable sp : space.
  Variable gsize : Z.
  Variables fl tl : rlist.
  Hypothesis G : Good1d sp gsize fl tl.

  Let L (inp : bool) := if inp then rl_trs fl else rl_trs tl.
  Let RL (inp : bool) := if inp then fl else tl.

  Lemma rl_all inp : FrozenList (RL inp) /\ rl_space (RL inp) = sp /\ rl_tids (RL inp) = gsize /\ NoEmpty (RL inp) /\ OwnDisjoint (RL inp) /\ rl_trs (RL inp) = L inp.
  Proof. destruct G. destruct inp; simpl; conjs; auto. Qed.

  Lemma g_pos inp x : In x (L inp) -> tf x < tt x.
  Proof.
    destruct (rl_all inp) as [F [S [_ [N [_ E]]]]]. rewrite <- E. intros H. pose proof (noempty_in _ _ F N H) as Q.
    rewrite S, (gd_dims _ _ _ _ G) in Q. destruct Q as [i Q]. unfold InBox in Q. unfold tf, tt. lia.
  Qed.
  Lemma g_task inp x : In x (L inp) -> 0 <= t_task x < gsize.
  Proof.
    destruct (rl_all inp) as [F [S [T [N [_ E]]]]]. rewrite <- E, <- T. intros H. destruct (FrozenList_Frozen _ F) as [F' _].
    pose proof (fz_tasks _ F') as Q. rewrite Forall_forall in Q. auto.
  Qed.
  Lemma g_inbox i b : InBox 1 i b <-> i0 (b_from b) <= i0 i < i0 (b_to b).
  Proof. unfold InBox. split; [tauto|]. intros H; split; [auto|]. split; intros; lia. Qed.

  Lemma ncnt_unique {A} (f : A -> bool) l : (forall n m x y, nth_error l n = Some x -> nth_error l m = Some y -> f x = true -> f y = true -> n = m) -> ncnt f l <= 1.
  Proof.
    induction l as [|a l IH]; intros H; [rewrite ncnt_nil; lia|]. rewrite ncnt_cons.
    assert (ncnt f l <= 1).
    { apply IH. intros n m x y H1 H2 H3 H4. assert (S n = S m) by (eapply H; eauto). lia. }
    destruct (f a) eqn:E; [|lia]. assert (Z0 : ncnt f l = 0); [|lia]. apply ncnt_zero. intros x Hx. destruct (f x) eqn:Q; auto.
    apply In_nth_error in Hx. destruct Hx as [n Hn]. assert (O = S n) by (exact (H O (S n) a x eq_refl Hn E Q)). lia.
  Qed.

  Lemma g_one inp t x : cov (L inp) t x <= 1.
  Proof.
    destruct (rl_all inp) as [F [S [T [N [D E]]]]].
    destruct (Z_lt_dec t 0) as [Ht|Ht]; [|destruct (Z_lt_dec t gsize) as [Ht2|Ht2]].
    - unfold cov. fold (ncnt (has t x) (L inp)). rewrite ncnt_zero; [lia|]. intros a Ha. pose proof (g_task inp a Ha). unfold has. lia.
    - assert (Q : cov (L inp) t x = ncnt (has t x) (mine t (L inp))).
      { unfold cov. fold (ncnt (has t x) (L inp)). clear. induction (L inp) as [|a l IH]; auto. cbn [mine filter]. unfold mine in *. simpl.
        rewrite ncnt_cons. destruct (t_task a =? t) eqn:X.
        - rewrite ncnt_cons. lia.
        - unfold has at 1. rewrite X. simpl. lia. }
      rewrite Q. apply ncnt_unique. intros n m a b H1 H2 H3 H4. destruct (FrozenList_Frozen _ F) as [F' _].
      assert (K : forall n a, nth_error (mine t (L inp)) n = Some a -> rl_tidrange (RL inp) t (Z.of_nat n) = Ok (Some a)).
      { intros n0 a0 H0. rewrite (frozen_tidrange _ F') by (rewrite T; lia). destruct (Z.of_nat n0 <? 0) eqn:X; [lia|]. rewrite Nat2Z.id, E, H0. auto. }
      assert (Z.of_nat n = Z.of_nat m); [|lia].
      eapply (D t (Z.of_nat n) (Z.of_nat m) a b (mkIdx x 0 0)); auto; rewrite S, (gd_dims _ _ _ _ G), g_inbox; simpl;
        unfold has, tf, tt in *; lia.
    - unfold cov. fold (ncnt (has t x) (L inp)). rewrite ncnt_zero; [lia|]. intros a Ha. pose proof (g_task inp a Ha). unfold has. lia.
  Qed.

  Lemma g_owns inp t i : Owns (RL inp) t i <-> cov (L inp) t (i0 i) = 1.
  Proof.
    destruct (rl_all inp) as [F [S [T [N [D E]]]]]. rewrite (owns_iff_trs _ _ _ F), S, (gd_dims _ _ _ _ G), E.
    pose proof (g_one inp t (i0 i)). split.
    - intros [x [H1 [H2 H3]]]. rewrite g_inbox in H3. assert (1 <= ncnt (has t (i0 i)) (L inp)).
      { apply (ncnt_in _ _ x H1). unfold has, tf, tt. lia. }
      unfold cov in *. fold (ncnt (has t (i0 i)) (L inp)) in *. lia.
    - intros H1. destruct (ncnt_positive (has t (i0 i)) (L inp)) as [x [X1 X2]].
      { unfold cov in H1. fold (ncnt (has t (i0 i)) (L inp)) in H1. lia. }
      exists x. split; auto. unfold has, tf, tt in X2. rewrite g_inbox. lia.
  Qed.

  Lemma g_own_owns inp t i : Owns (RL inp) t i <-> In t (owners gsize (L inp) (i0 i)).
  Proof.
    rewrite g_owns, owners_in. pose proof (g_one inp t (i0 i)). split; [|lia]. intros H1. split; [|lia].
    destruct (ncnt_positive (has t (i0 i)) (L inp)) as [x [X1 X2]].
    { unfold cov in H1. fold (ncnt (has t (i0 i)) (L inp)) in H1. lia. }
    pose proof (g_task inp x X1). unfold has in X2. lia.
  Qed.

  Lemma g_only inp s i : OnlyOwner (RL inp) s i <-> owners gsize (L inp) (i0 i) = [s].
  Proof.
    split.
    - intros H. apply sset_ext; [apply owners_sset|repeat constructor|]. intros t. rewrite <- g_own_owns. specialize (H t). simpl. intuition.
    - intros H t. rewrite g_own_owns, H. simpl. intuition.
  Qed.

  (* the sort *)
  Lemma g_border b : In b (allb (rl_trs fl) (rl_trs tl)) -> i0 (b_from (sp_box sp)) <= bd_b b <= i0 (b_to (sp_box sp)).
  Proof.
    intros H. unfold allb in H. rewrite !borders_ann in H.
    assert (K : exists inp a, In a (L inp) /\ (bd_b b = tf a \/ bd_b b = tt a)).
    { apply in_app_or in H. destruct H as [H|H]; apply in_flat_map in H; destruct H as [a [A1 A2]].
      - exists true, (fst a). split; [|destruct A2 as [<-|[<-|[]]]; simpl; auto]. simpl. rewrite <- (ann_fst (rl_trs fl) 0 (-1) (-1)). apply in_map; auto.
      - exists false, (fst a). split; [|destruct A2 as [<-|[<-|[]]]; simpl; auto]. simpl. rewrite <- (ann_fst (rl_trs tl) 0 (-1) (-1)). apply in_map; auto. }
    destruct K as [inp [a [A1 A2]]]. pose proof (g_pos inp a A1) as Hp. destruct (rl_all inp) as [F [S [T [N [D E]]]]].
    rewrite <- E in A1. pose proof (frozen_sub _ _ F A1) as Q. rewrite S, (gd_dims _ _ _ _ G) in Q.
    pose proof (Q (mkIdx (tf a) 0 0)) as Q1. pose proof (Q (mkIdx (tt a - 1) 0 0)) as Q2. rewrite !g_inbox in Q1, Q2. simpl in Q1, Q2.
    unfold tf, tt in *. lia.
  Qed.

  Lemma int32_id z : - 2 ^ 31 <= z < 2 ^ 31 -> int32 z = z.
  Proof. intros H. unfold int32. rewrite Z.mod_small by lia. lia. Qed.

  Lemma rb_cmp_ble a b : In a (allb (rl_trs fl) (rl_trs tl)) -> In b (allb (rl_trs fl) (rl_trs tl)) -> (rb_cmp a b <= 0 <-> ble a b).
  Proof.
    intros Ha Hb. pose proof (g_border a Ha). pose proof (g_border b Hb). pose proof (gd_width _ _ _ _ G).
    unfold rb_cmp, ble. destruct (bd_b a =? bd_b b) eqn:E.
    - destruct (bd_isStart a), (bd_isStart b); split; intros; try lia; try tauto.
    - rewrite int32_id by lia. lia.
  Qed.

  Lemma rb_cmp_consistent : ConsistentOn rb_cmp (allb (rl_trs fl) (rl_trs tl)).
  Proof.
    split.
    - intros a b Ha Hb. pose proof (g_border a Ha). pose proof (g_border b Hb). pose proof (gd_width _ _ _ _ G).
      unfold rb_cmp. rewrite (Z.eqb_sym (bd_b b)). destruct (bd_b a =? bd_b b) eqn:E.
      + destruct (bd_isStart a), (bd_isStart b); reflexivity.
      + rewrite !int32_id by lia. lia.
    - intros a b c Ha Hb Hc. rewrite !rb_cmp_ble by auto. unfold ble. intros. intuition lia.
  Qed.

  Lemma g_sorted qb : c_qsort rb_cmp qb ->
    Permutation (allb (rl_trs fl) (rl_trs tl)) (qb (allb (rl_trs fl) (rl_trs tl))) /\ StronglySorted ble (qb (allb (rl_trs fl) (rl_trs tl))).
  Proof.
    intros Hq. destruct (Hq (allb (rl_trs fl) (rl_trs tl))) as [P S]. split; auto. specialize (S rb_cmp_consistent).
    assert (K : forall x, In x (qb (allb (rl_trs fl) (rl_trs tl))) -> In x (allb (rl_trs fl) (rl_trs tl))).
    { intros x Hx. apply (Permutation_in _ (Permutation_sym P)); auto. }
    revert S K. generalize (qb (allb (rl_trs fl) (rl_trs tl))). intros l S K.
    induction S as [|a l S IH F]; constructor.
    - apply IH. intros; apply K; right; auto.
    - rewrite Forall_forall in *. intros x Hx. apply rb_cmp_ble; auto. apply K; left; auto. apply K; right; auto.
  Qed.

  Lemma pos_sorted sl : StronglySorted ble sl -> StronglySorted Z.le (map bd_b sl).
  Proof.
    induction 1 as [|a l S IH F]; simpl; constructor; auto. rewrite Forall_forall in *. intros x Hx. apply in_map_iff in Hx.
    destruct Hx as [b [<- Hb]]. specialize (F b Hb). unfold ble in F. lia.
  Qed.

  Lemma segs_unique sl sl' : Permutation (allb (rl_trs fl) (rl_trs tl)) sl -> StronglySorted ble sl ->
    Permutation (allb (rl_trs fl) (rl_trs tl)) sl' -> StronglySorted ble sl' -> segs sl = segs sl'.
  Proof.
    intros P1 S1 P2 S2. rewrite !segs_segsZ. f_equal. apply sorted_le_unique; try (apply pos_sorted; auto).
    apply Permutation_map. rewrite <- P1. auto.
  Qed.

  (* segments and owners *)
  Section Seg.
    Variable sl : list border.
    Hypothesis P : Permutation (allb (rl_trs fl) (rl_trs tl)) sl.
    Hypothesis S : StronglySorted ble sl.

    Lemma sg_lt s : In s (segs sl) -> fst s < snd s.
    Proof. destruct s as [a b]. rewrite segs_segsZ. intros H. apply segsZ_in in H; [|apply pos_sorted; auto]. simpl. lia. Qed.
    Lemma sg_sorted : StronglySorted (fun s s' => snd s <= fst s') (segs sl).
    Proof. rewrite segs_segsZ. apply segsZ_sorted. apply pos_sorted; auto. Qed.

    Lemma border_pos inp a : In a (L inp) -> In (tf a) (map bd_b sl) /\ In (tt a) (map bd_b sl).
    Proof.
      intros H. assert (K : exists x, In x (ann 0 (-1) (-1) (L inp)) /\ fst x = a).
      { rewrite <- (ann_fst (L inp) 0 (-1) (-1)) in H. apply in_map_iff in H. destruct H as [x [X1 X2]]. eauto. }
      destruct K as [x [X1 <-]].
      pose proof (border_in (rl_trs fl) (rl_trs tl) sl P inp x true X1) as B1. pose proof (border_in (rl_trs fl) (rl_trs tl) sl P inp x false X1) as B2.
      apply (in_map bd_b) in B1, B2. simpl in B1, B2. auto.
    Qed.

    Lemma sg_const s x : In s (segs sl) -> fst s <= x < snd s -> forall inp t, cov (L inp) t x = cov (L inp) t (fst s).
    Proof.
      intros Hs Hx inp t. unfold cov. f_equal. f_equal. apply filter_ext_in. intros a Ha.
      destruct (border_pos inp a Ha) as [B1 B2]. rewrite segs_segsZ in Hs. destruct s as [u v]. 
      apply segsZ_in in Hs; [|apply pos_sorted; auto]. destruct Hs as [H1 [_ [_ H4]]]. pose proof (H4 _ B1). pose proof (H4 _ B2).
      simpl in *. unfold has. lia.
    Qed.
    Lemma sg_own s x : In s (segs sl) -> fst s <= x < snd s -> forall inp, owners gsize (L inp) (fst s) = owners gsize (L inp) x.
    Proof. intros Hs Hx inp. unfold owners. apply filter_ext. intros t. rewrite (sg_const s x Hs Hx). auto. Qed.

    Lemma sg_cover inp t x : 1 <= cov (L inp) t x -> exists s, In s (segs sl) /\ fst s <= x < snd s.
    Proof.
      intros H. apply ncnt_positive in H. destruct H as [a [A1 A2]]. destruct (border_pos inp a A1) as [B1 B2].
      rewrite segs_segsZ. pose proof (pos_sorted sl S) as SS. destruct (sorted_first _ _ SS B1) as [h [r [E Hh]]]. rewrite E in *.
      unfold has in A2. destruct (segsZ_hit (tt a) x r h SS ltac:(lia) B2 ltac:(lia)) as [u [v [Q1 Q2]]]. exists (u, v). auto.
    Qed.
  End Seg.
End G.
