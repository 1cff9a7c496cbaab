(* A sequence of messages of one round: combining, allocation of the buffer. *)
From Coq Require Import ZArith List Bool Lia ZifyBool ZifyNat Permutation Sorted.
From Verif Require Import Base Model_Space Model_Mem Model_Transition Model_Action Model_ActionTrans Model_ActionExec Model_ActionExec2 Spec_Action Spec_ActionTrans Spec_Alloc Spec_Async.
From Verif Require Import Proof_Type Proof_Comb1 Proof_Comb2 Proof_Comb3 Proof_Comb4 Proof_Comb5 Proof_Comb6 Proof_Comb7 Proof_Comb8 Proof_Alloc Proof_Action2 Proof_Async3 Prop_Combine Prop_Alloc Proof_Prepare2 Proof_CopyArea.
Import ListNotations.
Open Scope Z_scope.

Definition is_sr (p : apar) : Prop := match p with BufSend _ n _ | BufRecv _ n _ => 0 < n | _ => False end.
Lemma sr_plain p : is_sr p -> plain p. Proof. destruct p; simpl; tauto. Qed.
Lemma sr_merge p : is_sr p -> mergeable p = true. Proof. destruct p; simpl; tauto. Qed.
Definition iarea (cx : actx) (l : list action) : Prop :=
  ForallOrdPairs (fun a b => Indep (msg_rd cx (a_par a)) (msg_wr cx (a_par a)) (msg_rd cx (a_par b)) (msg_wr cx (a_par b))) l.
Definition away_of (cx : actx) (T : area) (l : list action) : Prop :=
  forall a, In a l -> apart (msg_rd cx (a_par a)) T /\ apart (msg_wr cx (a_par a)) T.

Section One.
  Variables (cx : actx) (r0 : Z) (l : list action).
  Hypothesis He : 0 < cx_es cx.
  Hypothesis Hr0 : 0 <= r0 < 85.
  Hypothesis Hl : forall a, In a l -> a_round a = r0 /\ is_sr (a_par a).
  Hypothesis Htot : total l * cx_es cx < 2 ^ 32.

  Lemma one_ranged : ranged l.
  Proof. intros a Ha. destruct (Hl a Ha) as [E S]. split; [lia|]. unfold a_cnt, par_cnt. destruct (a_par a); simpl in S; try tauto; lia. Qed.
  Lemma one_cnt a : In a l -> 0 < a_cnt a.
  Proof. intros Ha. destruct (Hl a Ha) as [E S]. unfold a_cnt, par_cnt. destruct (a_par a); simpl in S; tauto. Qed.
  Lemma one_pos : pos a_cnt l.
  Proof. apply Forall_forall. intros a Ha. pose proof (one_cnt a Ha). lia. Qed.

  (* what messages read and write *)
  Lemma one_combinable place oth T : iarea cx l -> away_of cx T l ->
    Combinable cx (den cx place oth) (fun a => msg_rd cx (a_par a)) (fun a => msg_wr cx (a_par a)) T l.
  Proof.
    intros I A. constructor; auto.
    - intros a Ha. assert (Mm : mergeable (a_par a) = true) by (apply sr_merge, Hl; auto).
      destruct (proj1 (kind_mergeable _) Mm) as [k K]. rewrite (den_uni cx place oth a k K).
      assert (L : 0 <= alen cx a) by (unfold alen; pose proof (one_cnt a Ha); nia).
      destruct (uni_frame (gi cx a) (wo cx a) (kch k) (asrc a) (adst a) (alen cx a) L) as (F1 & F2 & F3 & F4 & F5).
      assert (Wr : forall x, msg_wr cx (a_par a) x <-> when (wo cx a) (region (adst a) (alen cx a)) x) by (intros; apply msg_wr_when; auto).
      assert (Rd : forall x, msg_rd cx (a_par a) x <-> when (gi cx a) (region (asrc a) (alen cx a)) x) by (intros; apply msg_rd_when; auto).
      split; [auto|split; [auto|split; [|split]]].
      + intros x. rewrite Wr. auto.
      + intros m bs x Hb Hx. apply F4; auto. rewrite <- Wr. auto.
      + intros m m' bs Hb Hm. destruct (F5 m m' bs Hb) as [G1 G2]; [intros x Hx; apply Hm, Rd, Hx|]. split; auto. intros x Hx. apply G2, Wr, Hx.
    - intros a Ha _ x. tauto.
    - eapply fop_impl; [|exact I]. intros a b Ha Hb H _ _. split; [exact H|]. intros N. exfalso. apply N. rewrite !is_msg_mergeable. split; apply sr_merge, Hl; auto.
  Qed.

  (* nothing to combine *)
  Lemma differ_together place oth : kinds_differ l -> iarea cx l -> together (den cx place oth) l.
  Proof.
    intros K I. assert (CB := one_combinable place oth none I). specialize (CB (fun a _ => conj (fun x _ H => H) (fun x _ H => H))).
    assert (F : forall a, In a l -> Frame (den cx place oth a) (msg_rd cx (a_par a)) (msg_wr cx (a_par a))) by (intros a Ha; apply (cb_frame _ _ _ _ _ _ CB); auto).
    split; [|apply Forall_forall; intros a Ha; eexists; eexists; apply F; auto].
    assert (B : ForallOrdPairs (fun a b => same_kind a b = false /\ Indep (msg_rd cx (a_par a)) (msg_wr cx (a_par a)) (msg_rd cx (a_par b)) (msg_wr cx (a_par b))) l).
    { clear - K I. unfold kinds_differ, iarea in *. induction l as [|a q IH]; constructor; inversion K; inversion I; subst; auto. rewrite Forall_forall in *. auto. }
    eapply fop_impl; [|exact B]. intros a b Ha Hb [H1 H2] Er.
    exists (msg_rd cx (a_par a)), (msg_wr cx (a_par a)), (msg_rd cx (a_par b)), (msg_wr cx (a_par b)). split; auto. split; auto. split; auto.
    apply kind_diff; auto; apply sr_merge, Hl; auto.
  Qed.

  Let C := classes [] l 0.
  Lemma unmerged_differ : (forall c, In c C -> is_merged c = false) -> kinds_differ l.
  Proof.
    intros H. destruct (classes_pairs (fun _ _ => True) l ltac:(auto) [] 0) as [O _].
    { clear. induction l; constructor; auto. apply Forall_forall. auto. } { exact one_pos. }
    assert (P := classes_perm l [] 0). replace (filter (np []) l) with l in P by (symmetry; apply filter_all; reflexivity). fold C in P, O.
    apply (fop_perm (fun a b => same_kind a b = false) _ _ ltac:(intros x y Hxy; cbv beta in *; rewrite same_kind_sym; exact Hxy) P). apply fop_flat.
    - eapply fop_impl; [|exact O]. intros c c' _ _ [Hx _] x y Hx1 Hy1. apply Hx; auto.
    - apply Forall_forall. intros c Hc. destruct (class_in l [] 0 c Hc) as (_ & _ & _ & _ & E). rewrite (E (H c Hc)). repeat constructor.
  Qed.

  (* the actions which get emitted *)
  Lemma rep_sr c : In c C -> In (c_rep c) l /\ a_round (c_rep c) = r0 /\ is_sr (a_par (c_rep c)).
  Proof.
    intros Hc. destruct (class_in l [] 0 c Hc) as (_ & (ms & Ems) & B & _). destruct (B (c_rep c)) as [Hin _]; [rewrite Ems; left; auto|]. split; auto.
  Qed.
  Lemma cls_sum c : In c C -> 0 <= c_off c /\ 0 < csum (c_ms c) /\ Z.of_nat (length (c_ms c)) <= csum (c_ms c) /\ (is_merged c = true -> c_off c + csum (c_ms c) <= msum C).
  Proof.
    intros Hc. destruct (classes_pairs (fun _ _ => True) l ltac:(auto) [] 0) as [_ O].
    { clear. induction l; constructor; auto. apply Forall_forall. auto. } { exact one_pos. }
    rewrite Forall_forall in O. destruct (O c Hc) as [O1 O2]. fold C in O2. destruct (class_in l [] 0 c Hc) as (_ & (ms & Ems) & B & _).
    assert (L : Z.of_nat (length (c_ms c)) <= csum (c_ms c)).
    { assert (Q : forall x, In x (c_ms c) -> 0 < a_cnt x) by (intros x Hx; apply one_cnt, B; auto). revert Q. unfold csum. generalize (c_ms c). induction l0 as [|x q IH]; intros Q; simpl; [lia|].
      specialize (IH (fun y Hy => Q y (or_intror Hy))). pose proof (Q x (or_introl eq_refl)). lia. }
    split; [lia|]. split; [rewrite Ems in *; cbn [length] in L; lia|]. split; auto. intros M. unfold c_sum in O2. rewrite M in O2. lia.
  Qed.

  Definition emitted (b : Z) (off : Z -> Z) (c : cls) : list action := flat_map (placed b 0 off) (emit cx 100 c).
  (* after allocation, with the kind of the message *)
  Lemma placed_emit place T oth b off c x : In c C -> In x (emit cx 100 c) -> place 100 = b + off 100 ->
    exists x', placed b 0 off x = [x'] /\ a_round x' = a_round x /\ den2 cx place T oth x' = den2 cx place T oth x /\ plain (a_par x') /\
      ((In x (e1 cx 100 c) /\ kind_of (a_par x') = kind_of (a_par (c_rep c)) /\ is_sr (a_par x') /\
        i_in (den2 cx place T oth x) = i_in (den2 cx place T oth (c_rep c)) /\ i_out (den2 cx place T oth x) = i_out (den2 cx place T oth (c_rep c))) \/
       ((In x (e0 cx 100 c) \/ In x (e2 cx 100 c)) /\ kind_of (a_par x') = None /\ i_in (den2 cx place T oth x) = None /\ i_out (den2 cx place T oth x) = None)).
  Proof.
    intros Hc Hx Hp. destruct (rep_sr c Hc) as (Hi & Hr & Hs). destruct (cls_sum c Hc) as (S1 & S2 & S3 & _).
    unfold emit in Hx. rewrite !in_app_iff in Hx. destruct Hx as [Hx|[Hx|Hx]]; pose proof Hx as Hx0.
    - unfold e0 in Hx. destruct (_ && _); [|destruct Hx]. destruct Hx as [<-|[]]. unfold placed. cbn [a_par a_round]. eexists. split; [reflexivity|]. cbn [a_par a_round plain kind_of].
      split; auto. split; [unfold den2, den; cbn [a_par]; rewrite Hp, Z.add_assoc; reflexivity|]. split; [exact I|]. right. split; auto.
    - unfold e1 in Hx. destruct (c_rep c) as [rr p] eqn:Er. cbn [a_par a_round] in *. destruct (is_merged c).
      + destruct Hx as [<-|[]]. destruct p; simpl in Hs; try tauto; unfold placed; cbn [rpar a_par a_round]; (eexists; split; [reflexivity|]); cbn [a_par a_round plain kind_of is_sr];
          (split; [auto|]; split; [unfold den2, den; cbn [a_par]; rewrite Hp, Z.add_assoc; reflexivity|]; split; [lia|]; left; repeat split; auto; lia).
      + destruct p; simpl in Hs; try tauto; destruct Hx as [<-|[]]; unfold placed; cbn [rpar a_par a_round]; (eexists; split; [reflexivity|]); cbn [a_par a_round plain kind_of is_sr];
          (split; [auto|]; split; [reflexivity|]; split; [lia|]; left; repeat split; auto; lia).
    - unfold e2 in Hx. destruct (_ && _); [|destruct Hx]. destruct Hx as [<-|[]]. unfold placed. cbn [a_par a_round]. eexists. split; [reflexivity|]. cbn [a_par a_round plain kind_of].
      split; auto. split; [unfold den2, den; cbn [a_par]; rewrite Hp, Z.add_assoc; reflexivity|]. split; [exact I|]. right. split; auto.
  Qed.
  Lemma emitted_in place (T : dtype) (oth : apar -> instr) b off c x' : In c C -> place 100 = b + off 100 -> In x' (emitted b off c) ->
    exists x, In x (emit cx 100 c) /\ placed b 0 off x = [x'].
  Proof.
    intros Hc Hp Hx. unfold emitted in Hx. apply in_flat_map in Hx as (x & Hx & Hy). exists x. split; auto.
    destruct (placed_emit place T oth b off c x Hc Hx Hp) as (y & E & _). rewrite E in Hy |- *. destruct Hy as [<-|[]]. auto.
  Qed.

  (* different classes do not touch what the other one writes *)
  Section Ind.
    Variables (place : Z -> Z) (oth : apar -> instr) (T : area).
    Notation rd := (fun a => msg_rd cx (a_par a)).
    Notation wr := (fun a => msg_wr cx (a_par a)).
    Hypothesis CB : Combinable cx (den cx place oth) rd wr T l.
    Hypothesis HT : forall x, region (place 100) (msum C * cx_es cx) x -> T x.
    Notation GD := (good cx place oth rd wr T 100 l).
    Lemma class_indep2 c c' : GD c -> GD c' -> In c C -> In c' C ->
      (forall x y, In x (c_ms c) -> In y (c_ms c') -> Rel cx place oth rd wr x y /\ same_kind x y = false) -> c_off c + c_sum c <= c_off c' ->
      Indep (CR cx place rd wr 100 c) (CW cx place wr 100 c) (CR cx place rd wr 100 c') (CW cx place wr 100 c').
    Proof.
      intros G G' Hc Hc' R O. assert (P := one_pos).
      assert (Er : forall c, In c C -> a_round (c_rep c) = r0) by (intros c0 H0; apply rep_sr; auto).
      assert (Im : forall c x, GD c -> In x (c_ms c) -> In x l) by (intros c0 x (_ & G0 & _) Hx; apply G0; auto).
      assert (I : forall x y, In x (c_ms c) -> In y (c_ms c') -> Indep (RD cx rd x) (WR cx wr x) (RD cx rd y) (WR cx wr y)).
      { intros x y Hx Hy. destruct (R x y Hx Hy) as [Rxy _]. pose proof (Hl x (Im c x G Hx)) as [E1 S1]. pose proof (Hl y (Im c' y G' Hy)) as [E2 S2]. apply Rxy; [lia|]. rewrite (sr_merge _ S1). auto. }
      assert (Aw : forall c x, GD c -> In x (c_ms c) -> away T (fo cx place oth rd wr x)).
      { intros c0 x G0 Hx. apply (fo_away cx place oth rd wr T 100 l CB). eapply Im; eauto. }
      assert (Tk : forall c x, GD c -> is_merged c = true -> region (place 100 + c_off c * cx_es cx) (csum (c_ms c) * cx_es cx) x -> T x).
      { intros c0 x G0 M0. destruct G0 as (_ & _ & _ & _ & G0 & _). apply G0; auto. }
      assert (TT : forall x, is_merged c = true -> is_merged c' = true -> region (place 100 + c_off c * cx_es cx) (csum (c_ms c) * cx_es cx) x ->
          region (place 100 + c_off c' * cx_es cx) (csum (c_ms c') * cx_es cx) x -> False).
      { intros x M1 M2 H1 H2. unfold c_sum in O. rewrite M1 in O. unfold region in *. nia. }
      repeat split; unfold CR, CW; intros a H1 H2.
      - destruct H1 as [(x & Hx & Wx)|[M1 T1]]; destruct H2 as [(y & Hy & Ry)|[(y & Hy & Wy)|[M2 T2]]].
        + destruct (I x y Hx Hy) as (A & _). apply (A a); auto.
        + destruct (I x y Hx Hy) as (_ & A & _). apply (A a); auto.
        + destruct (Aw c x G Hx) as [_ A]. apply (A a); eauto.
        + destruct (Aw c' y G' Hy) as [A _]. apply (A a); eauto.
        + destruct (Aw c' y G' Hy) as [_ A]. apply (A a); eauto.
        + eauto.
      - destruct H1 as [(x & Hx & Wx)|[M1 T1]]; destruct H2 as [(y & Hy & Wy)|[M2 T2]].
        + destruct (I x y Hx Hy) as (_ & A & _). apply (A a); auto.
        + destruct (Aw c x G Hx) as [_ A]. apply (A a); eauto.
        + destruct (Aw c' y G' Hy) as [_ A]. apply (A a); eauto.
        + eauto.
      - destruct H1 as [(y & Hy & Wy)|[M2 T2]]; destruct H2 as [(x & Hx & Rx)|[(x & Hx & Wx)|[M1 T1]]].
        + destruct (I x y Hx Hy) as (_ & _ & A). apply (A a); auto.
        + destruct (I x y Hx Hy) as (_ & A & _). apply (A a); auto.
        + destruct (Aw c' y G' Hy) as [_ A]. apply (A a); eauto.
        + destruct (Aw c x G Hx) as [A _]. apply (A a); eauto.
        + destruct (Aw c x G Hx) as [_ A]. apply (A a); eauto.
        + eauto.
    Qed.
  End Ind.

  Lemma emitted_together place T oth b off n : place 100 = b + off 100 -> n = msum C * cx_es cx -> iarea cx l -> away_of cx (region (place 100) n) l ->
    together (den2 cx place T oth) (flat_map (emitted b off) C) /\ kinds_differ (flat_map (emitted b off) C).
  Proof.
    intros Hp Hn I A. set (o2 := oth2 cx place T oth). change (den2 cx place T oth) with (den cx place o2).
    assert (CB := one_combinable place o2 _ I A). set (TA := region (place 100) n) in *.
    assert (HT : forall x, region (place 100) (msum C * cx_es cx) x -> TA x) by (intros x; unfold TA; rewrite Hn; auto).
    assert (G := good_all cx place o2 _ _ TA 100 He l CB one_pos HT). fold C in G. rewrite Forall_forall in G.
    destruct (classes_pairs (Rel cx place o2 (fun a => msg_rd cx (a_par a)) (fun a => msg_wr cx (a_par a))) l (Rel_sym _ _ _ _ _) [] 0 (Rel_all cx place o2 _ _ TA 100 l CB) one_pos) as [O _]. fold C in O.
    assert (PE : forall c x', In c C -> In x' (emitted b off c) -> exists x, In x (emit cx 100 c) /\ a_round x' = a_round x /\ den cx place o2 x' = den cx place o2 x /\
      ((In x (e1 cx 100 c) /\ kind_of (a_par x') = kind_of (a_par (c_rep c)) /\ i_in (den cx place o2 x) = i_in (den cx place o2 (c_rep c)) /\ i_out (den cx place o2 x) = i_out (den cx place o2 (c_rep c))) \/
       ((In x (e0 cx 100 c) \/ In x (e2 cx 100 c)) /\ kind_of (a_par x') = None /\ i_in (den cx place o2 x) = None /\ i_out (den cx place o2 x) = None))).
    { intros c x' Hc Hx. destruct (emitted_in place T oth b off c x' Hc Hp Hx) as (x & Hx1 & E). exists x. split; auto.
      destruct (placed_emit place T oth b off c x Hc Hx1 Hp) as (y & E' & R1 & R2 & R3 & R4). rewrite E in E'. injection E' as <-. split; auto. split; auto.
      destruct R4 as [(Q1 & Q2 & _ & Q3)|Q]; [left|right]; auto. }
    assert (FR : forall c x, In c C -> In x (emit cx 100 c) -> Frame (den cx place o2 x) (CR cx place (fun a => msg_rd cx (a_par a)) (fun a => msg_wr cx (a_par a)) 100 c) (CW cx place (fun a => msg_wr cx (a_par a)) 100 c)).
    { intros c x Hc Hx. exact (fe_frame cx place o2 _ _ TA 100 He l CB one_pos c x (G c Hc) Hx). }
    assert (ER : forall c, In c C -> (forall x, In x (e0 cx 100 c) -> a_round x = 3 * r0) /\ (forall x, In x (e1 cx 100 c) -> a_round x = 3 * r0 + 1) /\ (forall x, In x (e2 cx 100 c) -> a_round x = 3 * r0 + 2)).
    { intros c Hc. destruct (rep_sr c Hc) as (_ & <- & _). apply e_round. }
    (* of one class: different rounds *)
    assert (SR : forall c, In c C -> ForallOrdPairs (fun x y => a_round x <> a_round y) (emitted b off c)).
    { intros c Hc. assert (X : ForallOrdPairs (fun x y => a_round x <> a_round y) (emit cx 100 c)).
      { destruct (ER c Hc) as (R1 & R2 & R3). unfold emit.
        assert (L0 : (length (e0 cx 100 c) <= 1)%nat) by (unfold e0; destruct (_ && _); simpl; lia).
        assert (L1 : (length (e1 cx 100 c) <= 1)%nat) by (unfold e1; destruct (is_merged c); [|destruct (a_par (c_rep c))]; simpl; lia).
        assert (L2 : (length (e2 cx 100 c) <= 1)%nat) by (unfold e2; destruct (_ && _); simpl; lia).
        destruct (e0 cx 100 c) as [|x0 [|? ?]]; [| |simpl in L0; lia]; (destruct (e1 cx 100 c) as [|x1 [|? ?]]; [| |simpl in L1; lia]); (destruct (e2 cx 100 c) as [|x2 [|? ?]]; [| |simpl in L2; lia]);
          try specialize (R1 _ (or_introl eq_refl)); try specialize (R2 _ (or_introl eq_refl)); try specialize (R3 _ (or_introl eq_refl)); cbn [app]; repeat (constructor; try lia). }
      unfold emitted. apply fop_flat.
      - eapply fop_impl; [|exact X]. intros x y _ _ H x' y' Hx' Hy'. pose proof (placed_round b 0 off x) as P1. pose proof (placed_round b 0 off y) as P2. rewrite Forall_forall in P1, P2.
        rewrite (P1 _ Hx'), (P2 _ Hy'). auto.
      - apply Forall_forall. intros x Hx. destruct (placed_emit place T oth b off c x Hc Hx Hp) as (y & -> & _). repeat constructor. }
    (* of different classes *)
    assert (PX : forall c c', In c C -> In c' C -> (forall x y, In x (c_ms c) -> In y (c_ms c') -> Rel cx place o2 (fun a => msg_rd cx (a_par a)) (fun a => msg_wr cx (a_par a)) x y /\ same_kind x y = false) -> c_off c + c_sum c <= c_off c' ->
       forall x' y', In x' (emitted b off c) -> In y' (emitted b off c') -> same_kind x' y' = false /\ (a_round x' = a_round y' -> Com (den cx place o2 x') (den cx place o2 y'))).
    { intros c c' Hc Hc' R Of x' y' Hx' Hy'. destruct (PE c x' Hc Hx') as (x & Hx & Ex & Dx & Qx). destruct (PE c' y' Hc' Hy') as (y & Hy & Ey & Dy & Qy).
      destruct (rep_sr c Hc) as (C1 & C2 & C3). destruct (rep_sr c' Hc') as (C1' & C2' & C3').
      assert (Nk : same_kind (c_rep c) (c_rep c') = false).
      { apply R; [destruct (class_in l [] 0 c Hc) as (_ & (ms & ->) & _)|destruct (class_in l [] 0 c' Hc') as (_ & (ms & ->) & _)]; left; auto. }
      split.
      - destruct (same_kind x' y') eqn:K; auto. apply same_kind_iff in K as (k & K1 & K2 & _).
        destruct Qx as [(_ & Qx & _)|(_ & Qx & _)]; [|congruence]. destruct Qy as [(_ & Qy & _)|(_ & Qy & _)]; [|congruence].
        rewrite <- Nk. symmetry. apply same_kind_iff. exists k. split; [congruence|]. split; [congruence|]. lia.
      - intros Er. rewrite Dx, Dy. do 4 eexists. split; [apply (FR c x Hc Hx)|]. split; [apply (FR c' y Hc' Hy)|]. split; [apply (class_indep2 place o2 TA CB); auto|].
        destruct (ER c Hc) as (R0 & R1 & R2). destruct (ER c' Hc') as (R0' & R1' & R2').
        destruct Qx as [(X1 & _ & X2 & X3)|(X1 & _ & X2 & X3)]; [|rewrite X2, X3; split; intros q Hq; discriminate].
        destruct Qy as [(Y1 & _ & Y2 & Y3)|(Y1 & _ & Y2 & Y3)]; [|rewrite Y2, Y3; split; intros q Hq; discriminate].
        rewrite X2, X3, Y2, Y3. apply kind_diff; auto; try (apply sr_merge; auto). lia. }
    split; [split|].
    - apply fop_flat.
      + eapply fop_impl; [|exact O]. intros c c' Hc Hc' [Q1 Q2] x y Hx Hy. apply (PX c c'); auto.
      + apply Forall_forall. intros c Hc. eapply fop_impl; [|exact (SR c Hc)]. intros x y _ _ H E. exfalso. apply H. exact E.
    - apply Forall_forall. intros x' Hx'. apply in_flat_map in Hx' as (c & Hc & Hx'). destruct (PE c x' Hc Hx') as (x & Hx & _ & -> & _). do 2 eexists. apply (FR c x Hc Hx).
    - apply fop_flat.
      + eapply fop_impl; [|exact O]. intros c c' Hc Hc' [Q1 Q2] x y Hx Hy. apply (PX c c'); auto.
      + apply Forall_forall. intros c Hc. eapply fop_impl; [|exact (SR c Hc)]. intros x y _ _ H. destruct (same_kind x y) eqn:K; auto. apply sk_round in K. exfalso. apply H. exact K.
  Qed.

  Lemma emitted_kinds b off : kinds_differ (flat_map (emitted b off) C).
  Proof.
    destruct (classes_pairs (fun _ _ => True) l ltac:(auto) [] 0) as [O _].
    { clear. induction l; constructor; auto. apply Forall_forall. auto. } { exact one_pos. } fold C in O.
    set (place := fun _ : Z => b + off 100). set (T := int_dt (Model_Type.mkIt 4 true)). set (oth := fun _ : apar => skip).
    assert (PE : forall c x', In c C -> In x' (emitted b off c) -> exists x, In x (emit cx 100 c) /\ a_round x' = a_round x /\
      ((In x (e1 cx 100 c) /\ kind_of (a_par x') = kind_of (a_par (c_rep c))) \/ kind_of (a_par x') = None)).
    { intros c x' Hc Hx. destruct (emitted_in place T oth b off c x' Hc eq_refl Hx) as (x & Hx1 & E). exists x. split; auto.
      destruct (placed_emit place T oth b off c x Hc Hx1 eq_refl) as (y & E' & R1 & R2 & R3 & R4). rewrite E in E'. injection E' as <-. split; auto.
      destruct R4 as [(Q1 & Q2 & _ & Q3)|(Q1 & Q2 & _)]; [left|right]; auto. }
    apply fop_flat.
    - eapply fop_impl; [|exact O]. intros c c' Hc Hc' [R _] x' y' Hx' Hy'. destruct (same_kind x' y') eqn:K; auto. apply same_kind_iff in K as (k & K1 & K2 & _).
      destruct (PE c x' Hc Hx') as (x & _ & _ & [[_ Qx]|Qx]); [|congruence]. destruct (PE c' y' Hc' Hy') as (y & _ & _ & [[_ Qy]|Qy]); [|congruence].
      rewrite <- (proj2 (R (c_rep c) (c_rep c') ltac:(destruct (class_in l [] 0 c Hc) as (_ & (ms & ->) & _); left; auto) ltac:(destruct (class_in l [] 0 c' Hc') as (_ & (ms & ->) & _); left; auto))).
      symmetry. apply same_kind_iff. exists k. split; [congruence|]. split; [congruence|]. destruct (rep_sr c Hc) as (_ & -> & _). destruct (rep_sr c' Hc') as (_ & -> & _). auto.
    - apply Forall_forall. intros c Hc. unfold emitted, emit. rewrite !flat_map_app.
      assert (N0 : forall x, In x (flat_map (placed b 0 off) (e0 cx 100 c)) -> kind_of (a_par x) = None) by (unfold e0; destruct (_ && _); simpl; intros x; [intros [<-|[]]; auto|tauto]).
      assert (N2 : forall x, In x (flat_map (placed b 0 off) (e2 cx 100 c)) -> kind_of (a_par x) = None) by (unfold e2; destruct (_ && _); simpl; intros x; [intros [<-|[]]; auto|tauto]).
      assert (K0 : forall x y, kind_of (a_par x) = None -> same_kind x y = false).
      { intros x y Hn. destruct (same_kind x y) eqn:K; auto. apply same_kind_iff in K as (k & K1 & _). congruence. }
      assert (K1 : forall x y, kind_of (a_par y) = None -> same_kind x y = false) by (intros x y Hn; rewrite same_kind_sym; auto).
      assert (L1 : (length (flat_map (placed b 0 off) (e1 cx 100 c)) <= 1)%nat).
      { unfold e1. destruct (rep_sr c Hc) as (_ & _ & Hs). destruct (is_merged c), (a_par (c_rep c)); simpl in *; try tauto; lia. }
      revert N0. generalize (flat_map (placed b 0 off) (e0 cx 100 c)). intros l0 N0. induction l0 as [|z q IH]; cbn [app].
      + destruct (flat_map (placed b 0 off) (e1 cx 100 c)) as [|z [|? ?]]; [| |simpl in L1; lia]; cbn [app].
        * revert N2. generalize (flat_map (placed b 0 off) (e2 cx 100 c)). induction l0 as [|z q IH]; intros N2; constructor; [apply Forall_forall; intros; apply K0; apply N2; left; auto|apply IH; intros; apply N2; right; auto].
        * constructor; [apply Forall_forall; intros; apply K1; auto|].
          revert N2. generalize (flat_map (placed b 0 off) (e2 cx 100 c)). induction l0 as [|z' q IH]; intros N2; constructor; [apply Forall_forall; intros; apply K0; apply N2; left; auto|apply IH; intros; apply N2; right; auto].
      + constructor; [apply Forall_forall; intros; apply K0; apply N0; left; auto|apply IH; intros; apply N0; right; auto].
  Qed.

  (* areas used by what gets emitted *)
  Lemma emitted_area place oth T b off c x x' : place 100 = b + off 100 -> In c C ->
    good cx place oth (fun a => msg_rd cx (a_par a)) (fun a => msg_wr cx (a_par a)) T 100 l c -> In x (emit cx 100 c) -> placed b 0 off x = [x'] ->
    (forall z, ard cx prd (a_par x') z -> CR cx place (fun a => msg_rd cx (a_par a)) (fun a => msg_wr cx (a_par a)) 100 c z) /\
    (forall z, awr cx pwr (a_par x') z -> CW cx place (fun a => msg_wr cx (a_par a)) 100 c z).
  Proof.
    intros Hp Hc G Hx Ep. destruct (rep_sr c Hc) as (Hi & Hr & Hs). pose proof G as ((ms & Ems) & G1 & _ & G2 & _).
    assert (Pm : pos (alen cx) (c_ms c)) by (apply Forall_forall; intros y Hy; unfold alen; pose proof (one_cnt y (proj1 (G1 y Hy))); nia).
    assert (TA : tot (alen cx) (c_ms c) = csum (c_ms c) * cx_es cx) by apply tot_alen.
    unfold CR, CW. destruct (is_merged c) eqn:M.
    - destruct (class_in l [] 0 c Hc) as (_ & _ & _ & Sk & _). specialize (Sk M).
      assert (KK : forall y, In y (c_ms c) -> kind_of (a_par y) = kind_of (a_par (c_rep c)) /\ mergeable (a_par y) = true).
      { intros y Hy. specialize (Sk y Hy). apply same_kind_iff in Sk as (k & K1 & K2 & _). split; [congruence|]. apply sr_merge, Hl, G1; auto. }
      assert (TR : forall z, region (b + off 100 + c_off c * cx_es cx) (csum (c_ms c) * cx_es cx) z -> (exists y, In y (c_ms c) /\ WR cx (fun a => msg_wr cx (a_par a)) y z) \/ true = true /\ region (place 100 + c_off c * cx_es cx) (csum (c_ms c) * cx_es cx) z) by (intros z Hz; right; rewrite Hp; auto).
      unfold emit in Hx. rewrite !in_app_iff in Hx. destruct Hx as [Hx|[Hx|Hx]].
      + unfold e0 in Hx. rewrite M in Hx. destruct (gi cx (c_rep c)) eqn:Eg; [|destruct Hx]. destruct Hx as [<-|[]]. unfold placed in Ep. cbn [a_par a_round] in Ep. injection Ep as <-. cbn [a_par ard awr prd pwr].
        split; intros z (e & He1 & He2); destruct (ents_in _ _ _ Pm _ _ He1) as (y & Hy & E1 & E2 & E3 & E4).
        * left. exists y. split; auto. unfold RD. rewrite (proj2 (KK y Hy)). split; [|rewrite E1, E2 in He2; exact He2].
          destruct (KK y Hy) as [K _]. revert Eg K. unfold gi. destruct (a_par (c_rep c)); simpl in Hs; try tauto; destruct (a_par y); simpl; congruence.
        * apply TR. rewrite TA in E4. rewrite E2 in He2. unfold region in *. lia.
      + unfold e1 in Hx. rewrite M in Hx. destruct Hx as [<-|[]]. destruct (a_par (c_rep c)); simpl in Hs; try tauto; unfold placed in Ep; cbn [rpar a_par a_round] in Ep; injection Ep as <-; cbn [a_par ard awr prd pwr]; rewrite ?Z.add_assoc;
          (split; intros z Hz; first [exact (False_ind _ Hz) | right; exact (TR z Hz) | exact (TR z Hz)]).
      + unfold e2 in Hx. rewrite M in Hx. destruct (wo cx (c_rep c)) eqn:Eg; [|destruct Hx]. destruct Hx as [<-|[]]. unfold placed in Ep. cbn [a_par a_round] in Ep. injection Ep as <-. cbn [a_par ard awr prd pwr].
        split; intros z (e & He1 & He2); destruct (ents_in _ _ _ Pm _ _ He1) as (y & Hy & E1 & E2 & E3 & E4).
        * right. apply TR. rewrite TA in E4. rewrite E2 in He2. unfold region in *. lia.
        * left. exists y. split; auto. unfold WR. rewrite (proj2 (KK y Hy)). split; [|rewrite E1, E2 in He2; exact He2].
          destruct (KK y Hy) as [K _]. revert Eg K. unfold wo. destruct (a_par (c_rep c)); simpl in Hs; try tauto; destruct (a_par y); simpl; congruence.
    - unfold emit, e0, e1, e2 in Hx. rewrite M in Hx. cbn [andb app] in Hx. rewrite app_nil_r in Hx. assert (Mr := sr_merge _ Hs).
      assert (X : a_par x' = a_par (c_rep c)).
      { destruct (a_par (c_rep c)); simpl in Hs; try tauto; destruct Hx as [<-|[]]; unfold placed in Ep; cbn [a_par a_round] in Ep; injection Ep as <-; auto. }
      assert (Q1 : forall z, ard cx prd (a_par x') z -> RD cx (fun a => msg_rd cx (a_par a)) (c_rep c) z).
      { intros z Hz. rewrite X in Hz. unfold RD. rewrite Mr. apply msg_rd_when; auto. destruct (a_par (c_rep c)); simpl in Hs; try tauto; exact Hz. }
      assert (Q2 : forall z, awr cx pwr (a_par x') z -> WR cx (fun a => msg_wr cx (a_par a)) (c_rep c) z).
      { intros z Hz. rewrite X in Hz. unfold WR. rewrite Mr. apply msg_wr_when; auto. destruct (a_par (c_rep c)); simpl in Hs; try tauto; exact Hz. }
      split; intros z Hz; left; exists (c_rep c); (split; [rewrite Ems; left; auto|auto]).
  Qed.

  Lemma emitted_asy (place : Z -> Z) (T : dtype) (oth : apar -> instr) b off n : place 100 = b + off 100 -> n = msum C * cx_es cx -> iarea cx l -> away_of cx (region (place 100) n) l ->
    ForallOrdPairs (Asy cx) (flat_map (emitted b off) C).
  Proof.
    intros Hp Hn I A. set (o2 := oth2 cx place T oth).
    assert (CB := one_combinable place o2 _ I A). set (TA := region (place 100) n) in *.
    assert (HT : forall x, region (place 100) (msum C * cx_es cx) x -> TA x) by (intros x; unfold TA; rewrite Hn; auto).
    assert (G := good_all cx place o2 _ _ TA 100 He l CB one_pos HT). fold C in G. rewrite Forall_forall in G.
    destruct (classes_pairs (Rel cx place o2 (fun a => msg_rd cx (a_par a)) (fun a => msg_wr cx (a_par a))) l (Rel_sym _ _ _ _ _) [] 0 (Rel_all cx place o2 _ _ TA 100 l CB) one_pos) as [O _]. fold C in O.
    assert (AR : forall c x', In c C -> In x' (emitted b off c) ->
      (forall z, ard cx prd (a_par x') z -> CR cx place (fun a => msg_rd cx (a_par a)) (fun a => msg_wr cx (a_par a)) 100 c z) /\ (forall z, awr cx pwr (a_par x') z -> CW cx place (fun a => msg_wr cx (a_par a)) 100 c z)).
    { intros c x' Hc Hx. destruct (emitted_in place T oth b off c x' Hc Hp Hx) as (x & Hx1 & E). eapply emitted_area; eauto. }
    apply fop_flat.
    - eapply fop_impl; [|exact O]. intros c c' Hc Hc' [Q1 Q2] x y Hx Hy. left. destruct (AR c x Hc Hx) as [A1 A2]. destruct (AR c' y Hc' Hy) as [A3 A4].
      assert (IX : Indep (CR cx place (fun a => msg_rd cx (a_par a)) (fun a => msg_wr cx (a_par a)) 100 c) (CW cx place (fun a => msg_wr cx (a_par a)) 100 c)
        (CR cx place (fun a => msg_rd cx (a_par a)) (fun a => msg_wr cx (a_par a)) 100 c') (CW cx place (fun a => msg_wr cx (a_par a)) 100 c')) by (apply (class_indep2 place o2 TA CB); auto).
      destruct IX as (I1 & I2 & I3).
      split; [|split]; intros z H1 H2; [apply (I1 z)|apply (I2 z)|apply (I3 z)]; auto.
    - apply Forall_forall. intros c Hc. destruct (rep_sr c Hc) as (_ & Hr & Hs). unfold emitted, emit, e0, e1, e2.
      assert (Z0 : forall x y, a_round x < a_round y -> no_send (a_par x) -> no_recv (a_par y) -> ForallOrdPairs (Asy cx) [x; y]).
      { intros x y H1 H2 H3. constructor; [constructor; auto; right; left; split; auto|]. repeat constructor. }
      destruct (is_merged c); cbn [andb].
      + destruct (a_par (c_rep c)) eqn:Er; simpl in Hs; try tauto.
        * replace (gi cx (c_rep c)) with true by (unfold gi; rewrite Er; reflexivity). replace (wo cx (c_rep c)) with false by (unfold wo; rewrite Er; reflexivity).
          cbn [rpar app flat_map]. unfold placed. cbn [a_par a_round app]. apply Z0; cbn [a_par a_round no_send no_recv]; auto; lia.
        * replace (gi cx (c_rep c)) with false by (unfold gi; rewrite Er; reflexivity). replace (wo cx (c_rep c)) with true by (unfold wo; rewrite Er; reflexivity).
          cbn [rpar app flat_map]. unfold placed. cbn [a_par a_round app]. apply Z0; cbn [a_par a_round no_send no_recv]; auto; lia.
      + cbn [app]. rewrite app_nil_r. destruct (a_par (c_rep c)); simpl in Hs; try tauto; cbn [flat_map app]; unfold placed; cbn [a_par a_round app]; repeat constructor.
  Qed.

  (* the sequence made by combining *)
  Definition reserved (n : Z) : list action := mkAct 0 (BufReserve n 100 0) :: flat_map (emit cx 100) C.
  Lemma emit_shape c x : In c C -> In x (emit cx 100 c) ->
    reservation x = None /\
    (forall id o k, reference (cx_es cx) x = Some (id, o, k) -> id = 100 /\ 0 <= o /\ 0 < k /\ o + k <= msum C * cx_es cx) /\
    (forall id o ce, copy_reference x = Some (id, o, ce) -> id = 100 /\ o = 0 /\ ce <> [] /\ Z.of_nat (length ce) * cx_es cx <= msum C * cx_es cx) /\
    match a_par x with RBufSend _ _ _ _ | RBufRecv _ _ _ _ | BufSend _ _ _ | BufRecv _ _ _ | CopyToRBuf _ _ _ | CopyFromRBuf _ _ _ => True | _ => False end /\
    3 * r0 <= a_round x <= 3 * r0 + 2.
  Proof.
    intros Hc Hx. destruct (rep_sr c Hc) as (Hi & Hr & Hs). destruct (cls_sum c Hc) as (S1 & S2 & S3 & S4). destruct (class_in l [] 0 c Hc) as (_ & (ms & Ems) & _).
    destruct (e_round cx 100 c) as (R0 & R1 & R2). rewrite Hr in R0, R1, R2.
    assert (EL : forall ln ad o, length (ents ln ad o (c_ms c)) = length (c_ms c)).
    { intros ln ad. generalize (c_ms c). induction l0 as [|z q IH]; intros o; cbn [ents]; auto. cbn [length]. f_equal. apply IH. }
    assert (EN : forall ln ad o, ents ln ad o (c_ms c) <> []) by (intros ln ad o E; specialize (EL ln ad o); rewrite E, Ems in EL; discriminate).
    unfold emit in Hx. rewrite !in_app_iff in Hx. destruct Hx as [Hx|[Hx|Hx]].
    - specialize (R0 x Hx). unfold e0 in Hx. destruct (is_merged c) eqn:M; [|destruct Hx]. destruct (gi cx (c_rep c)); [|destruct Hx]. destruct Hx as [<-|[]]. cbn [a_par a_round] in *. unfold reservation, reference, copy_reference. cbn [a_par].
      split; auto. split; [discriminate|]. split; [|split; [exact I|lia]]. intros id o ce E. injection E as <- <- <-. split; auto. split; auto. split; auto. rewrite EL. specialize (S4 eq_refl). nia.
    - specialize (R1 x Hx). unfold e1 in Hx. destruct (is_merged c) eqn:M.
      + specialize (S4 eq_refl). destruct Hx as [<-|[]]. cbn [a_par a_round] in *. unfold reservation, reference, copy_reference. cbn [a_par]. destruct (a_par (c_rep c)); simpl in Hs; try tauto; cbn [rpar];
          (split; [auto|]; split; [|split; [discriminate|split; [exact I|lia]]]; intros id o k E; injection E as <- <- <-; repeat split; auto; nia).
      + destruct (a_par (c_rep c)) eqn:Ep; simpl in Hs; try tauto; destruct Hx as [<-|[]]; cbn [a_par a_round] in *; unfold reservation, reference, copy_reference; cbn [a_par];
          (split; [auto|]; split; [discriminate|split; [discriminate|split; [exact I|lia]]]).
    - specialize (R2 x Hx). unfold e2 in Hx. destruct (is_merged c) eqn:M; [|destruct Hx]. destruct (wo cx (c_rep c)); [|destruct Hx]. destruct Hx as [<-|[]]. cbn [a_par a_round] in *. unfold reservation, reference, copy_reference. cbn [a_par].
      split; auto. split; [discriminate|]. split; [|split; [exact I|lia]]. intros id o ce E. injection E as <- <- <-. split; auto. split; auto. split; auto. rewrite EL. specialize (S4 eq_refl). nia.
  Qed.
  Lemma reserved_in n x : In x (reserved n) -> x = mkAct 0 (BufReserve n 100 0) \/ exists c, In c C /\ In x (emit cx 100 c).
  Proof. intros [<-|H]; auto. right. apply in_flat_map in H. destruct H as (c & H1 & H2). eauto. Qed.
  Lemma reserved_rs n : reservations (reserved n) = [(100, n)].
  Proof.
    unfold reserved, reservations. cbn [flat_map]. change (reservation (mkAct 0 (BufReserve n 100 0))) with (Some (100, n)). cbn [app]. f_equal.
    assert (H : forall x, In x (flat_map (emit cx 100) C) -> reservation x = None) by (intros x Hx; apply in_flat_map in Hx as (c & Hc & Hx); apply (emit_shape c x Hc Hx)).
    revert H. generalize (flat_map (emit cx 100) C). induction l0 as [|z q IH]; intros H; cbn [flat_map]; auto. rewrite (H z (or_introl eq_refl)). cbn [app]. apply IH. intros; apply H; right; auto.
  Qed.
  Lemma msum_total : 0 <= msum C <= total l.
  Proof.
    pose proof (msum_le l [] 0 one_pos) as Hm. fold C in Hm. rewrite total_csum. split; [|lia]. unfold msum. apply tot_nonneg. apply Forall_forall. intros c Hc. destruct (cls_sum c Hc) as (_ & S & _). unfold c_sum. destruct (is_merged c); lia.
  Qed.
  Lemma reserved_ok n : n = msum C * cx_es cx -> 0 < n -> Reserving cx (reserved n) /\ Sound (cx_es cx) 1 [] (reserved n).
  Proof.
    intros Hn Hp. pose proof msum_total as MT. assert (B : n < 2 ^ 32) by nia. split.
    - constructor.
      + rewrite reserved_rs. repeat constructor. intros [].
      + rewrite reserved_rs. intros id k [E|[]]. injection E as <- <-. lia.
      + rewrite reserved_rs. unfold bytes_of. simpl. lia.
      + intros a id o k Ha E. destruct (reserved_in n a Ha) as [->|(c & Hc & Hx)]; [discriminate|]. destruct (emit_shape c a Hc Hx) as (_ & S & _). destruct (S _ _ _ E) as (_ & ? & ? & ?). lia.
      + intros a id o ce Ha E. destruct (reserved_in n a Ha) as [->|(c & Hc & Hx)]; [discriminate|]. destruct (emit_shape c a Hc Hx) as (_ & _ & S & _). destruct (S _ _ _ E) as (_ & -> & _ & ?). nia.
      + intros a id Ha Hi [(o & k & E)|(o & ce & E)]; (destruct (reserved_in n a Ha) as [->|(c & Hc & Hx)]; [discriminate|]); destruct (emit_shape c a Hc Hx) as (_ & S1 & S2 & _); exfalso.
        * destruct (S1 _ _ _ E) as (-> & _). discriminate Hi.
        * destruct (S2 _ _ _ E) as (-> & _). discriminate Hi.
      + intros a Ha. destruct (reserved_in n a Ha) as [->|(c & Hc & Hx)]; [exact I|]. destruct (emit_shape c a Hc Hx) as (_ & _ & _ & S & _). destruct (a_par a); auto; destruct S.
    - unfold reserved. cbn [Sound]. change (reservation (mkAct 0 (BufReserve n 100 0))) with (Some (100, n)). cbv iota beta. split; [lia|].
      assert (H : forall x, In x (flat_map (emit cx 100) C) -> exists c, In c C /\ In x (emit cx 100 c)) by (intros x Hx; apply in_flat_map in Hx; destruct Hx as (c & H1 & H2); eauto).
      revert H. generalize (flat_map (emit cx 100) C). induction l0 as [|z q IH]; intros H; cbn [Sound]; auto.
      destruct (H z (or_introl eq_refl)) as (c & Hc & Hx). destruct (emit_shape c z Hc Hx) as (-> & S1 & S2 & _). split; [|split; [|apply IH; intros; apply H; right; auto]].
      + intros id o k E _. destruct (S1 _ _ _ E) as (-> & ? & ? & ?). split; auto. exists n. split; [left; auto|lia].
      + intros id o ce E _. destruct (S2 _ _ _ E) as (-> & -> & ? & ?). split; auto. exists n. split; [left; auto|lia].
  Qed.

  Lemma seq_den (d d' : action -> instr) ll st : (forall a, In a ll -> d a = d' a) -> exec_seq d ll st = exec_seq d' ll st.
  Proof.
    clear. intros H. unfold exec_seq. rewrite !exec_rounds_flat. f_equal. apply map_ext_in. intros a Ha. apply H.
    apply in_flat_map in Ha as (r & _ & Ha). apply filter_In in Ha. tauto.
  Qed.
  Lemma together_den (d d' : action -> instr) ll : (forall a, In a ll -> d a = d' a) -> together d ll -> together d' ll.
  Proof.
    clear. intros H [T1 T2]. split.
    - eapply fop_impl; [|exact T1]. intros a b Ha Hb K E. rewrite <- !H by auto. auto.
    - apply Forall_forall. intros a Ha. rewrite Forall_forall in T2. rewrite <- H by auto. auto.
  Qed.

  Definition bufs_area (bs : list (Z * Z)) : area := fun x => exists e, In e bs /\ region (fst e) (snd e) x.

  Lemma core b : exists ch1 s1 ch2 L bufs nce rm,
    combine cx (mkSeq l 0 [] 0) = Ok (ch1, s1) /\ alloc_buffer cx b s1 = Ok (ch2, mkSeq L 0 bufs nce) /\
    (bufs = [] \/ exists n, bufs = [(b, n)] /\ 0 < n <= total l * cx_es cx) /\
    (forall a, In a L -> plain (a_par a) /\ 0 <= a_round a < 255) /\
    (forall a k, In a L -> kind_of (a_par a) = Some k -> a_round a = rm /\ exists a0, In a0 l /\ kind_of (a_par a0) = Some k) /\
    kinds_differ L /\ (forall a, In a L -> a_round a <= 3 * r0 + 2) /\ (iarea cx l -> away_of cx (bufs_area bufs) l -> ForallOrdPairs (Asy cx) L) /\
    (iarea cx l -> away_of cx (bufs_area bufs) l -> forall place T oth,
       together (den2 cx place T oth) L /\
       forall st, SameRun (bufs_area bufs) (exec_is (map (den2 cx place T oth) l) st) (exec_seq (den2 cx place T oth) L st)).
  Proof.
    assert (R := one_ranged).
    destruct (combine_ok cx (mkSeq l 0 [] 0) He R) as (ch1 & s1 & E1); auto; try (cbn [as_acts as_nce]; lia).
    { intros a Ha. cbn [as_acts] in Ha. unfold ValidMsg. destruct (Hl a Ha) as [_ S]. destruct (a_par a); simpl in S; tauto. }
    assert (Bl : by_round l).
    { assert (X : forall q, (forall a, In a q -> a_round a = r0) -> by_round q).
      { induction q as [|z q IH]; intros H; constructor; [apply IH; intros; apply H; right; auto|]. apply Forall_forall. intros y Hy. rewrite (H z), (H y); simpl; auto. lia. }
      apply X. intros; apply Hl; auto. }
    assert (Rl : forall a, In a l -> 0 <= a_round a < 255) by (intros a Ha; destruct (Hl a Ha); lia).
    destruct ch1.
    - (* combined *)
      destruct (combine_inv cx (mkSeq l 0 [] 0) s1 He R Htot E1) as (A1 & A2 & A3 & A4). cbn [as_acts as_nres as_bufs] in A1, A2, A3, A4. change (0 + 100) with 100 in A1. change (0 + 1) with 1 in A2. fold C in A1, A4.
      set (n := msum C * cx_es cx) in *. assert (Hn : 0 < n) by (unfold n; nia). change (as_acts s1 = reserved n) in A1.
      destruct (reserved_ok n eq_refl Hn) as [Rv Sd].
      destruct (C31_no_abort cx b s1) as (ch2 & s2 & E2 & Hb); rewrite ?A1, ?A2, ?A3; auto; try (cbn [length]; lia).
      { rewrite reserved_rs. reflexivity. }
      { intros a Ha. destruct (reserved_in n a Ha) as [->|(c & Hc & Hx)]; [simpl; lia|]. destruct (emit_shape c a Hc Hx) as (_ & _ & _ & _ & Q). lia. }
      rewrite A1, reserved_rs in Hb. destruct Hb as [_ Hb]. rewrite (Hb ltac:(unfold bytes_of; simpl; lia)) in E2.
      destruct (C31_allocation cx b s1 s2) as (off & B1 & B2 & B3 & B4 & _ & B5 & _ & B6); [rewrite A1; auto|exact E2|].
      rewrite A1, A3, reserved_rs in *. cbn [length app] in *. change (Z.of_nat 0) with 0 in *. replace (bytes_of [(100, n)]) with n in * by (unfold bytes_of; simpl; lia).
      destruct (B4 100 n (or_introl eq_refl)) as [B7 B8]. assert (Off : off 100 = 0) by lia.
      assert (EL : as_acts s2 = flat_map (emitted b off) C).
      { rewrite B5. unfold reserved. cbn [flat_map]. change (placed b 0 off (mkAct 0 (BufReserve n 100 0))) with (@nil action). cbn [app]. unfold emitted.
        clear. induction C as [|c q IH]; cbn [flat_map]; auto. rewrite flat_map_app, IH. auto. }
      exists true, s1, true, (as_acts s2), (as_bufs s2), (as_nce s2), (3 * r0 + 1).
      split; [exact E1|]. split; [rewrite E2; destruct s2; cbn in *; subst; reflexivity|]. split; [right; exists n; split; [auto|unfold n; pose proof msum_total; nia]|].
      set (pl := fun i : Z => if i =? 0 then b else b + off 100).
      assert (PE : forall (T : dtype) (oth : apar -> instr) x', In x' (as_acts s2) -> exists c x, In c C /\ In x (emit cx 100 c) /\ placed b 0 off x = [x'] /\ a_round x' = a_round x /\ plain (a_par x') /\
         ((In x (e1 cx 100 c) /\ kind_of (a_par x') = kind_of (a_par (c_rep c))) \/ kind_of (a_par x') = None)).
      { intros T oth x' Hx'. rewrite EL in Hx'. apply in_flat_map in Hx' as (c & Hc & Hx'). destruct (emitted_in pl T oth b off c x' Hc eq_refl Hx') as (x & Hx & Ep).
        destruct (placed_emit pl T oth b off c x Hc Hx eq_refl) as (y & E' & Q1 & Q2 & Q3 & Q4). rewrite Ep in E'. injection E' as <-. exists c, x. do 5 (split; auto).
        destruct Q4 as [(Z1 & Z2 & _)|(_ & Z2 & _)]; auto. }
      assert (PL : forall a, In a (as_acts s2) -> plain (a_par a) /\ 0 <= a_round a < 255).
      { intros a Ha. destruct (PE (int_dt (Model_Type.mkIt 4 true)) (fun _ => skip) a Ha) as (c & x & Hc & Hx & _ & Q1 & Q2 & _). split; auto. destruct (emit_shape c x Hc Hx) as (_ & _ & _ & _ & Q). lia. }
      split; [exact PL|]. split; [|split; [rewrite EL; apply emitted_kinds|]].
      { intros a k Ha Hk. destruct (PE (int_dt (Model_Type.mkIt 4 true)) (fun _ => skip) a Ha) as (c & x & Hc & Hx & _ & Q1 & _ & [[Q2 Q3]|Q2]); [|congruence].
        destruct (e_round cx 100 c) as (_ & Q & _). specialize (Q x Q2). destruct (rep_sr c Hc) as (Ci & Cr & _). split; [lia|]. exists (c_rep c). split; auto. congruence. }
      assert (AR : forall x, bufs_area (as_bufs s2) x <-> region (pl 100) n x).
      { intros x. unfold bufs_area. rewrite B1. change (pl 100) with (b + off 100). rewrite Off, Z.add_0_r. split; [intros (e & [<-|[]] & H); exact H|intros H; exists (b, n); split; [left; auto|exact H]]. }
      assert (A' : away_of cx (bufs_area (as_bufs s2)) l -> away_of cx (region (pl 100) n) l).
      { intros A a Ha. destruct (A a Ha) as [Q1 Q2]. split; intros x Hx Hy; [apply (Q1 x)|apply (Q2 x)]; auto; apply AR; auto. }
      split; [intros a Ha; destruct (PE (int_dt (Model_Type.mkIt 4 true)) (fun _ => skip) a Ha) as (c & x & Hc & Hx & _ & Q1 & _); destruct (emit_shape c x Hc Hx) as (_ & _ & _ & _ & Q); lia|].
      split; [intros I A; rewrite EL; exact (emitted_asy pl (int_dt (Model_Type.mkIt 4 true)) (fun _ => skip) b off n eq_refl eq_refl I (A' A))|].
      intros I A place T oth. specialize (A' A).
      destruct (emitted_together pl T oth b off n eq_refl eq_refl I A') as [TG _]. rewrite <- EL in TG.
      assert (DD : forall a, In a (as_acts s2) -> den2 cx pl T oth a = den2 cx place T oth a) by (intros a Ha; apply plain_den; apply PL; auto).
      assert (Dl : forall a, In a l -> den2 cx pl T oth a = den2 cx place T oth a) by (intros a Ha; apply plain_den; apply sr_plain, Hl; auto).
      split; [apply (together_den (den2 cx pl T oth)); auto|]. intros st.
      rewrite <- (seq_den (den2 cx pl T oth) (den2 cx place T oth)) by exact DD.
      replace (map (den2 cx place T oth) l) with (map (den2 cx pl T oth) l) by (apply map_ext_in; exact Dl).
      rewrite <- (exec_seq_sorted (den2 cx pl T oth) l st Bl Rl).
      rewrite B6; [|reflexivity|intros id k [E|[]]; injection E as <- <-; reflexivity]. rewrite <- A1.
      pose proof (C30_messages_only cx pl (oth2 cx pl T oth) (mkSeq l 0 [] 0) s1 n (flat_map (emit cx 100) C) He R Htot E1) as M. cbn [as_acts as_nres] in M. change (0 + 100) with 100 in M.
      assert (M' : SameRun (region (pl 100) n) (exec_seq (den2 cx pl T oth) l st) (exec_seq (den2 cx pl T oth) (as_acts s1) st)).
      { apply M; auto.
        - intros a Ha. apply is_msg_mergeable, sr_merge, Hl; auto.
        - eapply fop_impl; [|exact I]. intros a0 b0 _ _ H _. exact H. }
      revert M'. generalize (exec_seq (den2 cx pl T oth) l st), (exec_seq (den2 cx pl T oth) (as_acts s1) st). intros [u|] [v|]; simpl; try tauto. intros (Q1 & Q2 & Q3). split; [|split]; auto. intros x Hx. apply Q1. intros Hy. apply Hx, AR, Hy.
    - (* nothing to do *)
      pose proof (C30_unchanged _ _ _ E1) as ->. assert (KD : kinds_differ l).
      { apply unmerged_differ. intros c Hc. destruct (is_merged c) eqn:M; auto. exfalso.
        assert (X : msum C = 0).
        { unfold combine in E1. cbn [as_acts as_nce as_nres as_bufs] in E1. pose proof msum_total. rewrite (size_eq cx l [] 0 0 0) in E1; auto; try lia.
          - cbn [obind fst snd] in E1. fold C in E1. rewrite !Z.add_0_l in E1. destruct (msum C =? 0) eqn:Q; [lia|]. exfalso. revert E1. unfold cassert. destruct (rsum cx C >? 0); try discriminate.
            destruct (0 <? ASEQ_COPYENTRY_MAX); try discriminate. unfold add_reserve. destruct (comb_pass cx (0 + 100) (rsum cx C) [] l 0 0) as [[[acts o] ro]| | | |]; try discriminate. cbn [obind]. destruct (ro =? rsum cx C); try discriminate. destruct (msum C =? o); discriminate.
          - apply one_pos.
          - apply Forall_forall. intros a Ha. destruct (Hl a Ha) as [_ S]. intros _. unfold gives_input, wants_output. destruct (a_par a); simpl in S; try tauto; eauto.
          - fold C. nia. }
        destruct (cls_sum c Hc) as (S1 & S2 & _ & S4). specialize (S4 M). lia. }
      assert (PL : forall a, In a l -> plain (a_par a) /\ 0 <= a_round a < 255) by (intros a Ha; destruct (Hl a Ha) as [Q1 Q2]; split; [apply sr_plain; auto|lia]).
      exists false, (mkSeq l 0 [] 0), false, l, [], 0, r0. split; [auto|]. split; [apply alloc_none; [intros a Ha; apply PL; auto|simpl; lia]|]. split; [auto|]. split; [exact PL|].
      split; [intros a k Ha Hk; split; [apply Hl; auto|eauto]|]. split; [auto|].
      split; [intros a Ha; destruct (Hl a Ha); lia|].
      split; [intros I A; eapply fop_impl; [|exact I]; intros x y Hx Hy H; left; destruct (Hl x Hx) as [_ S1]; destruct (Hl y Hy) as [_ S2]; cbv beta in H; revert H; destruct (a_par x); simpl in S1; try tauto; destruct (a_par y); simpl in S2; try tauto; intros H; exact H|].
      intros I A place T oth. split; [apply (differ_together place (oth2 cx place T oth)); auto|]. intros st.
      rewrite (exec_seq_sorted _ l st Bl Rl). destruct (exec_is _ st); simpl; auto. repeat split; auto.
  Qed.
End One.
