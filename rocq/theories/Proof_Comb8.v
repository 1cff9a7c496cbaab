(* laik_aseq_combineActions: no abort; areas. *)
From Coq Require Import ZArith List Bool Lia ZifyBool ZifyNat Permutation.
From Verif Require Import Base Model_Space Model_Mem Model_Transition Model_Action Model_ActionTrans Model_ActionExec Spec_Action Spec_ActionTrans.
From Verif Require Import Proof_Type Proof_Comb1 Proof_Comb2 Proof_Comb3 Proof_Comb4 Proof_Comb5 Proof_Comb6 Proof_Comb7.
Import ListNotations.
Open Scope Z_scope.

Section Ok.
  Variables (cx : actx) (id : Z).
  Hypothesis (He : 0 < cx_es cx).
  Definition crange (c : cls) : Z :=
    if is_merged c then (if gi cx (c_rep c) then Z.of_nat (length (c_ms c)) else 0) + (if wo cx (c_rep c) then Z.of_nat (length (c_ms c)) else 0) else 0.
  Definition rsum (cs : list cls) : Z := tot crange cs.
  Lemma crange_nonneg c : 0 <= crange c.
  Proof. unfold crange. destruct (is_merged c), (gi cx (c_rep c)), (wo cx (c_rep c)); lia. Qed.
  Lemma rsum_nonneg cs : 0 <= rsum cs.
  Proof. apply tot_nonneg. apply Forall_forall. intros. apply crange_nonneg. Qed.

  Definition grp_ok (a : action) : Prop := mergeable (a_par a) = true -> exists i o, gives_input cx (a_par a) = Ok i /\ wants_output cx (a_par a) = Ok o.
  Lemma valid_grp a : ValidMsg cx a -> grp_ok a.
  Proof.
    unfold ValidMsg, grp_ok, gives_input, wants_output. destruct (a_par a); intros H M; try discriminate; eauto.
    destruct H as (_ & (x & Hx) & (y & Hy) & _). exists x, y. auto.
  Qed.

  Lemma size_eq l : forall prev off b r, pos a_cnt l -> Forall grp_ok l -> 0 <= b -> b + msum (classes prev l off) < 2 ^ 32 ->
    comb_size cx prev l b r = Ok (b + msum (classes prev l off), r + rsum (classes prev l off)).
  Proof.
    induction l as [|a l IH]; intros prev off b r P G Hb B.
    - simpl. unfold msum, rsum. simpl. f_equal. f_equal; lia.
    - inversion P as [|? ? Pa Pl]; subst. inversion G as [|? ? Ga Gl]; subst. cbn [comb_size classes] in *. unfold np in *.
      destruct (existsb (fun b0 => same_kind b0 a) prev) eqn:Ex; cbn [negb orb] in *; [apply IH; auto|].
      set (c := mkC a (members a l) off) in *.
      assert (Kr : c_rep c = a) by reflexivity. assert (Km : c_ms c = members a l) by reflexivity.
      assert (Pm : pos a_cnt (c_ms c)) by (unfold c; simpl; rewrite members_cons; constructor; auto; apply pos_filter; auto).
      change (msum (c :: classes (a :: prev) l (off + c_sum c))) with (c_sum c + msum (classes (a :: prev) l (off + c_sum c))) in *.
      change (rsum (c :: classes (a :: prev) l (off + c_sum c))) with (crange c + rsum (classes (a :: prev) l (off + c_sum c))) in *.
      pose proof (msum_le l (a :: prev) (off + c_sum c) Pl) as Hm. set (rest := classes (a :: prev) l (off + c_sum c)) in *.
      assert (Hcs : 0 <= csum (c_ms c)) by (apply tot_nonneg; auto).
      assert (Lm : (length (filter (same_kind a) (a :: l)) <=? 1)%nat = negb (is_merged c)).
      { unfold is_merged. rewrite Km. unfold members. destruct (mergeable (a_par a)) eqn:M; [lia|].
        rewrite filter_none; auto. intros x _. destruct (same_kind a x) eqn:K; auto. apply sk_merge in K as [K _]. congruence. }
      rewrite Lm. clearbody c. destruct (is_merged c) eqn:M; cbn [negb].
      + assert (Ma : mergeable (a_par a) = true).
        { unfold is_merged in M. rewrite Km in M. unfold members in M. destruct (mergeable (a_par a)); [auto|discriminate]. }
        destruct (Ga Ma) as (i & o & Hi & Ho). rewrite Hi, Ho. cbn [obind].
        assert (Sc : c_sum c = csum (c_ms c)) by (unfold c_sum; rewrite M; auto).
        replace (filter (same_kind a) (a :: l)) with (c_ms c) by (rewrite Km; unfold members; rewrite Ma; auto).
        rewrite cnt_sum_plain; auto; [|lia]. rewrite u32_id by lia.
        rewrite (IH _ (off + c_sum c)); auto; fold rest; try lia. f_equal. f_equal; [lia|].
        unfold crange. rewrite M, Kr. unfold gi, wo. rewrite Hi, Ho. cbn [ok_true]. lia.
      + assert (Sc : c_sum c = 0) by (unfold c_sum; rewrite M; auto). rewrite (IH _ (off + c_sum c)); auto; fold rest; try lia.
        f_equal. f_equal; [lia|]. unfold crange. rewrite M. lia.
  Qed.

  Lemma pass_ok cr l : forall prev off ro, pos a_cnt l -> Forall (ValidMsg cx) l -> Forall (fun a => 0 <= a_round a < 85) l -> 0 <= off ->
    (off + msum (classes prev l off)) * cx_es cx < 2 ^ 32 -> ro + rsum (classes prev l off) <= cr ->
    exists acts off', comb_pass cx id cr prev l off ro = Ok (acts, off', ro + rsum (classes prev l off)).
  Proof.
    induction l as [|a l IH]; intros prev off ro P G R Ho B Hr.
    - simpl. unfold rsum. simpl. exists [], off. rewrite Z.add_0_r. auto.
    - inversion P as [|? ? Pa Pl]; subst. inversion G as [|? ? Ga Gl]; subst. inversion R as [|? ? Ra Rl]; subst. cbn [comb_pass classes] in *. unfold np in *.
      destruct (existsb (fun b0 => same_kind b0 a) prev) eqn:Ex; cbn [negb] in *; [apply IH; auto|].
      set (c := mkC a (members a l) off) in *.
      assert (Kr : c_rep c = a) by reflexivity. assert (Km : c_ms c = members a l) by reflexivity.
      assert (Pm : pos a_cnt (c_ms c)) by (unfold c; simpl; rewrite members_cons; constructor; auto; apply pos_filter; auto).
      change (msum (c :: classes (a :: prev) l (off + c_sum c))) with (c_sum c + msum (classes (a :: prev) l (off + c_sum c))) in *.
      change (rsum (c :: classes (a :: prev) l (off + c_sum c))) with (crange c + rsum (classes (a :: prev) l (off + c_sum c))) in *.
      pose proof (msum_le l (a :: prev) (off + c_sum c) Pl) as Hm. set (rest := classes (a :: prev) l (off + c_sum c)) in *.
      pose proof (rsum_nonneg rest) as Hrr. pose proof (crange_nonneg c) as Hcr.
      assert (Hcs : mergeable (a_par a) = true -> 0 < csum (c_ms c)).
      { intros Ma. rewrite Km, members_cons. unfold csum. cbn [tot]. assert (0 < a_cnt a) by (unfold ValidMsg in Ga; unfold a_cnt, par_cnt; destruct (a_par a); try discriminate; lia).
        pose proof (tot_nonneg a_cnt _ (pos_filter a_cnt (same_kind a) l Pl)). lia. }
      clearbody c.
      destruct (mergeable (a_par a)) eqn:Ma.
      + specialize (Hcs eq_refl). replace (filter (same_kind a) (a :: l)) with (c_ms c) by (rewrite Km; unfold members; rewrite Ma; auto).
        assert (Gt : (Z.of_nat (length (c_ms c)) >? 1) = is_merged c) by (unfold is_merged; lia). rewrite Gt.
        destruct (is_merged c) eqn:M.
        * assert (Sc : c_sum c = csum (c_ms c)) by (unfold c_sum; rewrite M; auto).
          rewrite cnt_sum_plain; auto; [|nia]. rewrite !u32_id by nia.
          destruct (valid_grp a Ga Ma) as (i & o & Hi & Hoo). rewrite Hi, Hoo. cbn [obind].
          assert (Cr : crange c = (if i then Z.of_nat (length (c_ms c)) else 0) + (if o then Z.of_nat (length (c_ms c)) else 0)).
          { unfold crange. rewrite M, Kr. unfold gi, wo. rewrite Hi, Hoo. auto. }
          assert (Aa : forall r p, r < 255 -> add_action r p = Ok (mkAct r p)) by (intros r p Hrr'; unfold add_action, cassert; replace (r <? 255) with true by lia; auto).
          assert (exists c1, (if i then do x <- add_action (3 * a_round a) (CopyToRBuf (ces (cx_es cx) src_addr off (c_ms c)) id 0); Ok [x] else Ok []) = Ok c1) as (c1 & ->).
          { destruct i; [rewrite Aa by lia|]; simpl; eauto. }
          cbn [obind]. unfold cassert at 1. replace (ro + (if i then Z.of_nat (length (c_ms c)) else 0) <=? cr) with true by (destruct i, o; lia).
          assert (exists p, rbuf_par (a_par a) id (off * cx_es cx) (csum (c_ms c)) = Ok p) as (p & ->).
          { unfold rbuf_par, cassert. replace (csum (c_ms c) >? 0) with true by lia. destruct (a_par a); try discriminate; eauto. }
          cbn [obind]. rewrite Aa by lia. cbn [obind].
          assert (exists c3, (if o then do x <- add_action (3 * a_round a + 2) (CopyFromRBuf (ces (cx_es cx) dst_addr off (c_ms c)) id 0); Ok [x] else Ok []) = Ok c3) as (c3 & ->).
          { destruct o; [rewrite Aa by lia|]; simpl; eauto. }
          cbn [obind]. unfold cassert. replace (_ <=? cr) with true by (destruct i, o; lia).
          destruct (IH (a :: prev) (off + c_sum c) (ro + (if i then Z.of_nat (length (c_ms c)) else 0) + (if o then Z.of_nat (length (c_ms c)) else 0))) as (acts & off' & E); auto; fold rest; try lia; try nia.
          rewrite <- Sc, E. fold rest. cbn [obind fst snd]. do 2 eexists. f_equal. f_equal. lia.
        * assert (Sc : c_sum c = 0) by (unfold c_sum; rewrite M; auto). assert (Cr : crange c = 0) by (unfold crange; rewrite M; auto).
          assert (readd_par (a_par a) = Ok (a_par a)) as ->.
          { unfold readd_par, cassert. unfold ValidMsg in Ga. destruct (a_par a); try discriminate; auto; replace (count >? 0) with true by lia; auto. }
          cbn [obind]. unfold add_action, cassert. replace (3 * a_round a + 1 <? 255) with true by lia. cbn [obind].
          destruct (IH (a :: prev) (off + c_sum c) ro) as (acts & off' & E); auto; fold rest; try lia.
          assert (Er : rest = classes (a :: prev) l off) by (unfold rest; rewrite Sc, Z.add_0_r; auto).
          rewrite Sc, Z.add_0_r, <- Er in E. rewrite E. cbn [obind fst snd]. do 2 eexists. f_equal. f_equal. lia.
      + assert (M : is_merged c = false) by (unfold is_merged; rewrite Km; unfold members; rewrite Ma; auto).
        assert (Sc : c_sum c = 0) by (unfold c_sum; rewrite M; auto). assert (Cr : crange c = 0) by (unfold crange; rewrite M; auto).
        assert (exists q, aseq_add a (3 * a_round a + 1) = Ok q) as (q & ->).
        { unfold aseq_add, add_action, cassert. replace (3 * a_round a + 1 <? 0) with false by lia. replace (3 * a_round a + 1 <? 255) with true by lia. destruct (a_par a); simpl; eauto. }
        cbn [obind]. destruct (IH (a :: prev) (off + c_sum c) ro) as (acts & off' & E); auto; fold rest; try lia.
        assert (Er : rest = classes (a :: prev) l off) by (unfold rest; rewrite Sc, Z.add_0_r; auto).
          rewrite Sc, Z.add_0_r, <- Er in E. rewrite E. cbn [obind fst snd]. do 2 eexists. f_equal. f_equal. lia.
  Qed.
End Ok.

Lemma combine_ok cx s : 0 < cx_es cx -> ranged (as_acts s) -> (forall a, In a (as_acts s) -> ValidMsg cx a) ->
  total (as_acts s) * cx_es cx < 2 ^ 32 -> as_nce s < 5 ->
  exists b s', combine cx s = Ok (b, s').
Proof.
  intros He R V B N. set (l := as_acts s) in *. set (C := classes [] l 0).
  assert (P : pos a_cnt l) by (apply Forall_forall; intros; apply R; auto).
  assert (Vl : Forall (ValidMsg cx) l) by (apply Forall_forall; auto).
  pose proof (msum_le l [] 0 P) as Hm. fold C in Hm. rewrite <- total_csum in Hm.
  unfold combine. fold l. rewrite (size_eq cx l [] 0 0 0 P); [|eapply Forall_impl; [|exact Vl]; intros; apply valid_grp; auto|lia|fold C; nia].
  fold C. rewrite !Z.add_0_l. cbn [obind fst snd].
  assert (K : (msum C = 0 -> rsum cx C = 0) /\ (0 < msum C -> 0 < rsum cx C)).
  { assert (G : forall c, In c C -> (c_sum c = 0 /\ crange cx c = 0) \/ (0 < c_sum c /\ 0 < crange cx c)).
    { intros c Hc. destruct (class_in l [] 0 c Hc) as (_ & (ms & Ems) & A & D & _). unfold c_sum, crange. destruct (is_merged c) eqn:M; [right|auto].
      assert (Hv : ValidMsg cx (c_rep c)) by (apply V; apply A; rewrite Ems; left; auto).
      assert (Hmg : mergeable (a_par (c_rep c)) = true).
      { assert (Hin : In (c_rep c) (c_ms c)) by (rewrite Ems; left; auto). specialize (D eq_refl _ Hin). apply sk_merge in D. tauto. }
      assert (Hrep : 0 < a_cnt (c_rep c)) by (unfold ValidMsg in Hv; unfold a_cnt, par_cnt; destruct (a_par (c_rep c)); try discriminate; lia).
      split.
      - unfold csum. rewrite Ems. cbn [tot]. assert (0 <= tot a_cnt ms); [|lia]. apply tot_nonneg. apply Forall_forall. intros x Hx. apply R. apply A. rewrite Ems. right; auto.
      - assert (0 < Z.of_nat (length (c_ms c))) by (rewrite Ems; simpl; lia).
        assert (gi cx (c_rep c) = true \/ wo cx (c_rep c) = true).
        { unfold gi, wo, gives_input, wants_output. unfold ValidMsg in Hv. destruct (a_par (c_rep c)); try discriminate; simpl; auto. destruct Hv as (_ & _ & _ & [-> | ->]); auto. }
        destruct (gi cx (c_rep c)), (wo cx (c_rep c)); lia. }
    clear -G. unfold msum, rsum. assert (K : (tot c_sum C = 0 /\ tot (crange cx) C = 0) \/ (0 < tot c_sum C /\ 0 < tot (crange cx) C)).
    { induction C as [|c q IH]; simpl; [auto|]. destruct (G c (or_introl eq_refl)), IH; auto; try lia; intros; apply G; right; auto. }
    lia. }
  destruct (msum C =? 0) eqn:E0.
  - unfold cassert. replace (rsum cx C =? 0) with true by lia. eauto.
  - unfold cassert at 1. replace (rsum cx C >? 0) with true by lia. unfold cassert at 1. replace (as_nce s <? ASEQ_COPYENTRY_MAX) with true by (unfold ASEQ_COPYENTRY_MAX; lia).
    unfold add_reserve. destruct (pass_ok cx (as_nres s + 100) He (rsum cx C) l [] 0 0 P Vl) as (acts & off' & E); fold C; try lia.
    + apply Forall_forall. intros; apply R; auto.
    + nia.
    + rewrite E. cbn [obind]. destruct (pass_eq cx (as_nres s + 100) (rsum cx C) He l [] 0 0 _ _ _ E P) as (_ & A & _); fold C; try lia; [apply Forall_forall; intros; apply R; auto|nia|].
      unfold cassert. fold C. replace (0 + rsum cx C =? rsum cx C) with true by lia. fold C in A. replace (msum C =? off') with true by lia. eauto.
Qed.

(* areas *)
Lemma emit_tmps cx id c : (forall a, In a (c_ms c) -> tmp_area cx id a = None) -> (exists ms, c_ms c = c_rep c :: ms) ->
  (is_merged c = true -> mergeable (a_par (c_rep c)) = true) ->
  tmp_areas cx id (emit cx id c) = if is_merged c then [(c_off c * cx_es cx, c_sum c * cx_es cx)] else [].
Proof.
  intros Hn (ms & Ems) Hm. unfold tmp_areas, emit. rewrite !flat_map_app.
  assert (Z0 : flat_map (fun a => match tmp_area cx id a with Some x => [x] | None => [] end) (e0 cx id c) = []) by (unfold e0; destruct (_ && _); auto).
  assert (Z2 : flat_map (fun a => match tmp_area cx id a with Some x => [x] | None => [] end) (e2 cx id c) = []) by (unfold e2; destruct (_ && _); auto).
  rewrite Z0, Z2, app_nil_r. cbn [app]. unfold e1, c_sum. destruct (is_merged c) eqn:M.
  - specialize (Hm eq_refl). cbn [flat_map]. unfold tmp_area, rpar. cbn [a_par]. destruct (a_par (c_rep c)); try discriminate; rewrite Z.eqb_refl; auto.
  - specialize (Hn (c_rep c)). rewrite Ems in Hn. specialize (Hn (or_introl eq_refl)). unfold tmp_area in Hn.
    destruct (a_par (c_rep c)) eqn:Ep; auto; cbn [flat_map app]; unfold tmp_area; cbn [a_par]; rewrite Hn; auto.
Qed.
Lemma ForallOrdPairs_flat {A B} (R : A -> A -> Prop) (S : B -> B -> Prop) (f : A -> list B) l :
  (forall a, In a l -> ForallOrdPairs S (f a)) -> (forall a b x y, In a l -> In b l -> R a b -> In x (f a) -> In y (f b) -> S x y) ->
  ForallOrdPairs R l -> ForallOrdPairs S (flat_map f l).
Proof.
  intros H1 H2 O. induction O as [|a l Ha O IH]; simpl; [constructor|].
  assert (K : ForallOrdPairs S (flat_map f l)) by (apply IH; [intros; apply H1; right; auto | intros a1 b1 x y; intros; apply (H2 a1 b1); simpl; auto]).
  assert (G : forall x y, In x (f a) -> In y (flat_map f l) -> S x y).
  { intros x y Hx Hy. apply in_flat_map in Hy as (b & Hb & Hy). rewrite Forall_forall in Ha. apply (H2 a b); simpl; auto. }
  specialize (H1 a (or_introl eq_refl)). clear H2 IH Ha O. induction (f a) as [|x q IHq]; simpl; auto.
  inversion H1; subst. constructor; [|apply IHq; auto; intros; apply G; simpl; auto].
  apply Forall_forall. intros y Hy. apply in_app_iff in Hy as [Hy|Hy]; [rewrite Forall_forall in *; auto|]. apply G; simpl; auto.
Qed.
Lemma tmp_flat cx id {A} (f : A -> list action) l : tmp_areas cx id (flat_map f l) = flat_map (fun c => tmp_areas cx id (f c)) l.
Proof. induction l as [|c l IH]; simpl; auto. unfold tmp_areas in *. rewrite flat_map_app, IH. auto. Qed.
Lemma combine_areas cx s s' : 0 < cx_es cx -> ranged (as_acts s) -> total (as_acts s) * cx_es cx < 2 ^ 32 ->
  (forall a, In a (as_acts s) -> tmp_area cx (as_nres s + 100) a = None) ->
  combine cx s = Ok (true, s') ->
  ForallOrdPairs (fun x y => fst x + snd x <= fst y) (tmp_areas cx (as_nres s + 100) (as_acts s')) /\
  Forall (fun x => 0 <= fst x /\ 0 <= snd x /\ fst x + snd x <= msum (classes [] (as_acts s) 0) * cx_es cx) (tmp_areas cx (as_nres s + 100) (as_acts s')).
Proof.
  intros He R B N H. destruct (combine_inv cx s s' He R B H) as (E & _). rewrite E. clear E.
  set (id := as_nres s + 100) in *. set (l := as_acts s) in *. set (C := classes [] l 0) in *.
  assert (P : pos a_cnt l) by (apply Forall_forall; intros; apply R; auto).
  destruct (classes_pairs (fun _ _ => True) l ltac:(auto) [] 0 ltac:(clear; induction l; constructor; auto; apply Forall_forall; auto) P) as [O F]. fold C in O, F.
  change (tmp_areas cx id (mkAct 0 (BufReserve (msum C * cx_es cx) id 0) :: flat_map (emit cx id) C)) with (tmp_areas cx id (flat_map (emit cx id) C)).
  assert (G : forall c, In c C -> tmp_areas cx id (emit cx id c) = if is_merged c then [(c_off c * cx_es cx, c_sum c * cx_es cx)] else []).
  { intros c Hc. destruct (class_in l [] 0 c Hc) as (_ & (ms & Ems) & A & D & _). apply emit_tmps; eauto.
    - intros a Ha. apply N. apply A; auto.
    - intros M. assert (Hin : In (c_rep c) (c_ms c)) by (rewrite Ems; left; auto). specialize (D M _ Hin). apply sk_merge in D. tauto. }
  assert (Np : forall c, In c C -> 0 <= c_sum c).
  { intros c Hc. destruct (class_in l [] 0 c Hc) as (_ & _ & A & _). unfold c_sum, csum. destruct (is_merged c); [|lia]. apply tot_nonneg. apply Forall_forall. intros x Hx. apply R. apply A; auto. }
  rewrite tmp_flat. split.
  - eapply ForallOrdPairs_flat; [| |exact O].
    + intros c Hc. rewrite (G c Hc). destruct (is_merged c); repeat constructor.
    + intros c c' x y Hc Hc' [_ Hr] Hx Hy. rewrite G in Hx, Hy by auto. destruct (is_merged c); [|destruct Hx]. destruct (is_merged c'); [|destruct Hy].
      destruct Hx as [<-|[]]. destruct Hy as [<-|[]]. simpl. nia.
  - apply Forall_forall. intros x Hx. apply in_flat_map in Hx as (c & Hc & Hx). rewrite G in Hx by auto. rewrite Forall_forall in F. specialize (F c Hc). cbv beta in F. specialize (Np c Hc).
    destruct (is_merged c); [|destruct Hx]. destruct Hx as [<-|[]]. simpl. nia.
Qed.
