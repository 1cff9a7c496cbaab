(* One round before and after laik_aseq_combineActions. *)
From Coq Require Import ZArith List Bool Lia ZifyBool ZifyNat Permutation.
From Verif Require Import Base Model_Space Model_Mem Model_Transition Model_Action Model_ActionTrans Model_ActionExec Spec_ActionTrans.
From Verif Require Import Proof_Type Proof_Comb1 Proof_Comb2 Proof_Comb3 Proof_Comb4 Proof_Comb5.
Import ListNotations.
Open Scope Z_scope.

Lemma is_msg_mergeable a : is_msg a <-> mergeable (a_par a) = true.
Proof. unfold is_msg. destruct (a_par a); simpl; split; auto; discriminate. Qed.

Definition kch (k : kind) : chan :=
  match k with KS t => Peer t | KR f => Peer f | KG i o r => Grp i o r | KA root r => Coll root r end.
Definition asrc (a : action) : Z := src_addr (a_par a).
Definition adst (a : action) : Z := dst_addr (a_par a).

Section Round.
  Variables (cx : actx) (place : Z -> Z) (oth : apar -> instr) (rd wr : action -> area) (T : area) (id : Z).
  Let es := cx_es cx.
  Notation d := (den cx place oth).
  Hypothesis (He : 0 < cx_es cx).

  Lemma den_uni a k : kind_of (a_par a) = Some k -> d a = uni (gi cx a) (wo cx a) (kch k) (asrc a) (adst a) (alen cx a).
  Proof.
    destruct a as [r p]. unfold den, gi, wo, asrc, adst, alen, a_cnt. cbn [a_par]. destruct p; intros H; try discriminate; injection H as <-; reflexivity.
  Qed.
  Lemma den_rpar a k r off n : kind_of (a_par a) = Some k ->
    d (mkAct r (rpar (a_par a) id off n)) = uni (gi cx a) (wo cx a) (kch k) (place id + off) (place id + off) (n * cx_es cx).
  Proof.
    destruct a as [r' p]. unfold den, gi, wo, rpar. cbn [a_par]. destruct p; intros H; try discriminate; injection H as <-; reflexivity.
  Qed.
  Lemma gi_kind a b k : kind_of (a_par a) = Some k -> kind_of (a_par b) = Some k -> gi cx a = gi cx b /\ wo cx a = wo cx b.
  Proof.
    destruct a as [r p], b as [r' p']. unfold gi, wo. cbn [a_par]. intros H H'. destruct p; try discriminate H; rewrite <- H in H'; destruct p'; try discriminate H'; injection H'; intros; subst; auto.
  Qed.

  (* exact footprints of messages *)
  Definition RD (a : action) : area := if mergeable (a_par a) then when (gi cx a) (region (asrc a) (alen cx a)) else rd a.
  Definition WR (a : action) : area := if mergeable (a_par a) then when (wo cx a) (region (adst a) (alen cx a)) else wr a.
  Lemma msg_rd_when a x : mergeable (a_par a) = true -> (msg_rd cx (a_par a) x <-> when (gi cx a) (region (asrc a) (alen cx a)) x).
  Proof.
    destruct a as [r p]. unfold msg_rd, when, gi, asrc, alen, a_cnt, ing. cbn [a_par]. destruct p; intros H; try discriminate; simpl; try tauto; try (split; [tauto|intros [_ K]; exact K]).
    split; [tauto|]. intros [K _]. discriminate.
  Qed.
  Lemma msg_wr_when a x : mergeable (a_par a) = true -> (msg_wr cx (a_par a) x <-> when (wo cx a) (region (adst a) (alen cx a)) x).
  Proof.
    destruct a as [r p]. unfold msg_wr, when, wo, adst, alen, a_cnt, ing. cbn [a_par]. destruct p; intros H; try discriminate; simpl; try tauto; try (split; [tauto|intros [K _]; discriminate]).
    rewrite orb_true_iff, !Z.eqb_eq. tauto.
  Qed.
  Definition fo (a : action) : fi := mkF (d a) (RD a) (WR a).

  Variable (l : list action).
  Hypothesis (CB : Combinable cx d rd wr T l) (P : pos a_cnt l).

  Lemma RD_iff a x : In a l -> (RD a x <-> rd a x).
  Proof.
    intros H. unfold RD. destruct (mergeable (a_par a)) eqn:E; [|tauto]. rewrite <- msg_rd_when by auto.
    destruct (cb_msg _ _ _ _ _ _ CB a H) with (x := x) as [K _]; [apply is_msg_mergeable; auto|]. tauto.
  Qed.
  Lemma WR_iff a x : In a l -> (WR a x <-> wr a x).
  Proof.
    intros H. unfold WR. destruct (mergeable (a_par a)) eqn:E; [|tauto]. rewrite <- msg_wr_when by auto.
    destruct (cb_msg _ _ _ _ _ _ CB a H) with (x := x) as [_ K]; [apply is_msg_mergeable; auto|]. tauto.
  Qed.
  Lemma alen_nonneg a : In a l -> 0 <= alen cx a.
  Proof. intros H. unfold pos in P. rewrite Forall_forall in P. specialize (P a H). unfold alen. nia. Qed.
  Lemma alen_pos ms : (forall x, In x ms -> In x l) -> pos (alen cx) ms.
  Proof. intros H. apply Forall_forall. intros x Hx. apply alen_nonneg. auto. Qed.

  Lemma fo_frame a : In a l -> ffr (fo a).
  Proof.
    intros H. unfold ffr, fo. simpl. destruct (mergeable (a_par a)) eqn:E.
    - destruct (proj1 (kind_mergeable _) E) as [k K]. rewrite (den_uni a k K). unfold RD, WR. rewrite E. apply uni_frame. apply alen_nonneg. auto.
    - unfold RD, WR. rewrite E. apply (cb_frame _ _ _ _ _ _ CB). auto.
  Qed.
  Lemma fo_away a : In a l -> away T (fo a).
  Proof.
    intros H. destruct (cb_temp _ _ _ _ _ _ CB a H) as [A B]. split; intros x Hx; simpl in Hx; [apply A, RD_iff|apply B, WR_iff]; auto.
  Qed.

  (* what two actions of a round need *)
  Definition Rel (a b : action) : Prop := a_round a = a_round b -> mergeable (a_par a) || mergeable (a_par b) = true ->
    Indep (RD a) (WR a) (RD b) (WR b) /\ (mergeable (a_par a) && mergeable (a_par b) = false -> diffc (i_in (d a)) (i_in (d b)) /\ diffc (i_out (d a)) (i_out (d b))).
  Lemma Rel_sym a b : Rel a b -> Rel b a.
  Proof.
    intros R E M. destruct R as [(A & B & C) D]; auto; [rewrite orb_comm; auto|]. split.
    - repeat split; auto. intros x H1 H2. apply (B x); auto.
    - intros K. destruct D as [D1 D2]; [rewrite andb_comm; auto|]. split; intros c H1 H2; [apply (D1 c)|apply (D2 c)]; auto.
  Qed.
  Lemma Rel_all : ForallOrdPairs Rel l.
  Proof.
    pose proof (cb_indep _ _ _ _ _ _ CB) as O. pose proof RD_iff as Hr. pose proof WR_iff as Hw. revert O Hr Hw. generalize l as q. clear.
    induction q as [|a q IH]; intros O Hr Hw; constructor; inversion O as [|? ? O1 O2]; subst.
    - rewrite Forall_forall in *. intros b Hb E M. destruct (O1 b Hb E) as [(A & B & C) D].
      { rewrite !is_msg_mergeable. apply orb_true_iff in M. auto. }
      split.
      + assert (In a (a :: q)) by (left; auto). assert (In b (a :: q)) by (right; auto).
        repeat split; intros x H1 H2; [apply (A x); [apply Hw|apply Hr]|apply (B x); apply Hw|apply (C x); [apply Hw|apply Hr]]; auto.
      + intros K. apply D. rewrite !is_msg_mergeable. intros [K1 K2]. rewrite K1, K2 in K. discriminate.
    - apply IH; auto; intros; [apply Hr|apply Hw]; right; auto.
  Qed.

  (* different kinds use different streams *)
  Lemma kind_diff a b : mergeable (a_par a) = true -> mergeable (a_par b) = true -> a_round a = a_round b -> same_kind a b = false ->
    diffc (i_in (d a)) (i_in (d b)) /\ diffc (i_out (d a)) (i_out (d b)).
  Proof.
    intros Ma Mb R K. destruct (proj1 (kind_mergeable _) Ma) as [k Ka]. destruct (proj1 (kind_mergeable _) Mb) as [k' Kb].
    assert (N : k <> k').
    { intros <-. assert (same_kind a b = true) by (apply same_kind_iff; exists k; auto). congruence. }
    rewrite (den_uni a k Ka), (den_uni b k' Kb). unfold uni. simpl.
    assert (X : kch k <> kch k' \/ (wo cx a = false \/ wo cx b = false) /\ (gi cx a = false \/ gi cx b = false)).
    { destruct a as [ra p], b as [rb p']. unfold wo, gi. cbn [a_par] in *. clear Ma Mb K R.
      destruct p; try discriminate Ka; destruct p'; try discriminate Kb; injection Ka as <-; injection Kb as <-; cbn [kch]; try (left; congruence); right; simpl; auto. }
    destruct X as [X|[X1 X2]].
    - split; intros c; [destruct (wo cx a), (wo cx b)|destruct (gi cx a), (gi cx b)]; try discriminate; congruence.
    - split; intros c; [destruct X1 as [-> | ->]|destruct X2 as [-> | ->]]; try discriminate; destruct (wo cx a), (gi cx a); discriminate.
  Qed.
  Lemma Rel_Ind a b : In a l -> In b l -> Rel a b -> a_round a = a_round b -> mergeable (a_par a) || mergeable (a_par b) = true -> same_kind a b = false -> Ind (fo a) (fo b).
  Proof.
    intros Ha Hb R E M K. destruct (R E M) as [I D]. split; auto. simpl.
    destruct (mergeable (a_par a) && mergeable (a_par b)) eqn:Mm; auto.
    apply andb_true_iff in Mm as [M1 M2]. apply kind_diff; auto.
  Qed.

  (* grouping the actions of a round does not matter *)
  Definition inr (r : Z) (c : cls) : bool := in_rd r (c_rep c).
  Lemma group_round r q : forall prev off, (forall x, In x q -> In x l) -> ForallOrdPairs Rel q ->
    eqv (map fo (filter (fun b => in_rd r b && np prev b) q)) (flat_map (fun c => map fo (c_ms c)) (filter (inr r) (classes prev q off))).
  Proof.
    induction q as [|a q IH]; intros prev off S O; simpl; [apply eqv_refl|].
    inversion O as [|? ? Oa Oq]; subst. assert (Sq : forall x, In x q -> In x l) by (intros; apply S; right; auto).
    assert (Eprev : np prev a = false \/ in_rd r a = false -> filter (fun b => in_rd r b && np (a :: prev) b) q = filter (fun b => in_rd r b && np prev b) q).
    { intros H. apply filter_ext. intros b. rewrite np_cons. destruct (same_kind a b) eqn:K; auto. rewrite <- (np_same prev a b K). simpl.
      destruct H as [-> | H]; [destruct (in_rd r b); auto|]. unfold in_rd in *. rewrite <- (sk_round a b K), H. auto. }
    destruct (np prev a) eqn:N; simpl.
    - unfold inr at 1. simpl. destruct (in_rd r a) eqn:Er; simpl.
      + rewrite members_cons. simpl. apply eqv_cons.
        set (L := flat_map (fun c => map fo (c_ms c)) (filter (inr r) (classes (a :: prev) q (off + c_sum (mkC a (members a q) off))))).
        pose proof (eqv_partition fo (same_kind a) (filter (fun b => in_rd r b && np prev b) q) []) as Pt. rewrite !app_nil_r in Pt.
        eapply eqv_trans; [apply Pt|].
        * apply Forall_forall. intros x Hx. apply filter_In in Hx as [Hx _]. apply fo_frame. auto.
        * constructor.
        * intros x y Hx Hy Kx Ky. apply filter_In in Hx as [Hx Hx2]. apply filter_In in Hy as [Hy Hy2].
          assert (Nxy : same_kind x y = false).
          { destruct (same_kind x y) eqn:K; auto. rewrite (sk_trans a y x Ky) in Kx; [discriminate|]. apply sk_sym; auto. }
          assert (My : mergeable (a_par y) = true) by (apply sk_merge in Ky; tauto).
          apply Rel_Ind; auto.
          -- apply (fop_in Rel q); auto using Rel_sym. intros ->. rewrite sk_refl in Nxy; auto. discriminate.
          -- unfold in_rd in *. lia.
          -- rewrite My. apply orb_true_r.
        * assert (F1 : filter (same_kind a) (filter (fun b => in_rd r b && np prev b) q) = filter (same_kind a) q).
          { clear -N Er. induction q as [|b q IH]; simpl; auto. destruct (same_kind a b) eqn:K.
            - rewrite <- (np_same prev a b K), N. unfold in_rd in *. rewrite <- (sk_round a b K), Er. simpl. rewrite K, IH. auto.
            - destruct (in_rd r b && np prev b); simpl; rewrite ?K; auto. }
          assert (F2 : filter (fun x => negb (same_kind a x)) (filter (fun b => in_rd r b && np prev b) q) = filter (fun b => in_rd r b && np (a :: prev) b) q).
          { clear. induction q as [|b q IH]; simpl; auto. rewrite np_cons. destruct (in_rd r b), (np prev b); simpl; rewrite ?andb_false_r, ?andb_true_r; auto. rewrite IH. auto. }
          rewrite F1, F2. apply eqv_back. apply IH; auto.
      + rewrite <- Eprev by auto. apply IH; auto.
    - rewrite andb_false_r. rewrite <- Eprev by auto. apply IH; auto.
  Qed.

  Lemma tot_alen ms : tot (alen cx) ms = csum ms * cx_es cx.
  Proof. unfold csum. induction ms as [|x ms IH]; simpl; auto. rewrite IH. unfold alen. lia. Qed.

  (* a class before and after *)
  Definition good (c : cls) : Prop :=
    (exists ms, c_ms c = c_rep c :: ms) /\ (forall x, In x (c_ms c) -> In x l /\ a_round x = a_round (c_rep c)) /\
    (is_merged c = true -> forall x, In x (c_ms c) -> same_kind (c_rep c) x = true) /\
    (is_merged c = false -> c_ms c = [c_rep c]) /\
    (is_merged c = true -> forall x, region (place id + c_off c * cx_es cx) (csum (c_ms c) * cx_es cx) x -> T x) /\
    ForallOrdPairs Rel (c_ms c).

  Lemma fop_filter {A} (R : A -> A -> Prop) Q q : ForallOrdPairs R q -> ForallOrdPairs R (filter Q q).
  Proof.
    induction 1 as [|x q H O IH]; simpl; [constructor|]. destruct (Q x); auto. constructor; auto. rewrite Forall_forall in *. intros y Hy. apply filter_In in Hy as [Hy _]. auto.
  Qed.
  Lemma classes_ms_rel (R : action -> action -> Prop) q : forall prev off, ForallOrdPairs R q -> forall c, In c (classes prev q off) -> ForallOrdPairs R (c_ms c).
  Proof.
    induction q as [|a q IH]; intros prev off O c; simpl; [tauto|]. inversion O; subst. destruct (np prev a); [intros [<-|H]|intros H].
    - simpl. unfold members. destruct (mergeable (a_par a)); [apply fop_filter; auto|repeat constructor].
    - eapply IH; eauto.
    - eapply IH; eauto.
  Qed.

  Lemma merged_kind c : good c -> is_merged c = true -> exists k, forall x, In x (c_ms c) ->
    kind_of (a_par x) = Some k /\ gi cx x = gi cx (c_rep c) /\ wo cx x = wo cx (c_rep c) /\ mergeable (a_par x) = true.
  Proof.
    intros (_ & _ & G & _) M. specialize (G M).
    assert (exists k, kind_of (a_par (c_rep c)) = Some k) as [k K].
    { unfold is_merged in M. destruct (c_ms c) as [|y q] eqn:Ec; [discriminate|]. specialize (G y (or_introl eq_refl)). apply same_kind_iff in G as (k & K & _). eauto. }
    exists k. intros x Hx. specialize (G x Hx). apply same_kind_iff in G as (k' & K1 & K2 & _). rewrite K in K1. injection K1 as <-.
    split; auto. destruct (gi_kind x (c_rep c) k) as [A B]; auto. repeat split; auto. apply kind_mergeable. eauto.
  Qed.

  Lemma merged_fo c : good c -> is_merged c = true -> exists k,
    map fo (c_ms c) = map (orig asrc adst (alen cx) (gi cx (c_rep c)) (wo cx (c_rep c)) (kch k)) (c_ms c) /\
    kind_of (a_par (c_rep c)) = Some k.
  Proof.
    intros G M. destruct (merged_kind c G M) as [k K]. exists k. split.
    - apply map_ext_in. intros x Hx. destruct (K x Hx) as (K1 & K2 & K3 & K4). unfold fo, orig, RD, WR. rewrite K4, (den_uni x k K1), K2, K3. auto.
    - apply K. destruct G as ((ms & ->) & _). left; auto.
  Qed.

  Lemma emit_merged c k : is_merged c = true -> kind_of (a_par (c_rep c)) = Some k ->
    map d (e0 cx id c) = (if gi cx (c_rep c) then [copyin asrc (alen cx) (place id) (c_off c * cx_es cx) (c_ms c)] else []) /\
    map d (e1 cx id c) = [merged (alen cx) (gi cx (c_rep c)) (wo cx (c_rep c)) (kch k) (place id) (c_off c * cx_es cx) (c_ms c)] /\
    map d (e2 cx id c) = (if wo cx (c_rep c) then [copyout adst (alen cx) (place id) (c_off c * cx_es cx) (c_ms c)] else []).
  Proof.
    intros M K. unfold e0, e1, e2. rewrite M. cbn [andb]. repeat split.
    - destruct (gi cx (c_rep c)); auto. cbn [map]. unfold den. cbn [a_par]. rewrite Z.add_0_r. auto.
    - cbn [map]. rewrite (den_rpar _ k) by auto. unfold merged. rewrite tot_alen. auto.
    - destruct (wo cx (c_rep c)); auto. cbn [map]. unfold den. cbn [a_par]. rewrite Z.add_0_r. auto.
  Qed.

  Lemma class_sim c s t : good c -> AgreeOut T s t -> SameRun T (ex (map fo (c_ms c)) s) (exec_is (map d (emit cx id c)) t).
  Proof.
    intros G A. destruct (is_merged c) eqn:M.
    - destruct (merged_fo c G M) as (k & Ef & K). destruct (emit_merged c k M K) as (E0 & E1 & E2).
      unfold emit. rewrite !map_app, E0, E1, E2. pose proof G as (_ & G1 & _ & _ & G2 & G3). rewrite Ef. apply fuse; auto.
      + apply alen_pos. intros; apply G1; auto.
      + rewrite tot_alen. apply G2; auto.
      + rewrite <- Ef. apply Forall_forall. intros x Hx. apply in_map_iff in Hx as (y & <- & Hy). apply fo_away. apply G1; auto.
      + rewrite <- Ef. destruct (merged_kind c G M) as [k' K']. clear Ef E0 E1 E2.
        assert (forall x, In x (c_ms c) -> mergeable (a_par x) = true /\ a_round x = a_round (c_rep c)) as H.
        { intros x Hx. split; [apply K'|apply G1]; auto. }
        clear G1 G2 K'. revert H. induction G3 as [|x q Hx O IH]; intros H; simpl; constructor.
        * rewrite Forall_forall in *. intros z Hz. apply in_map_iff in Hz as (y & <- & Hy). apply (Hx y Hy).
          -- rewrite (proj2 (H x (or_introl eq_refl))), (proj2 (H y (or_intror Hy))). auto.
          -- rewrite (proj1 (H x (or_introl eq_refl))). auto.
        * apply IH. intros; apply H; right; auto.
    - pose proof G as (_ & G1 & _ & G2 & _). rewrite (G2 M) in *. unfold emit, e0, e1, e2. rewrite M. cbn [andb app]. rewrite app_nil_r.
      set (a := c_rep c) in *. assert (Ha : In a l) by (apply G1; left; auto).
      pose proof (fo_frame a Ha) as F. pose proof (fo_away a Ha) as [W1 W2].
      pose proof (exec_i_agree T _ _ _ s t F W1 W2 A) as X.
      unfold ex. cbn [List.map exec_is].
      destruct (a_par a) eqn:Ep; try (assert (Ed : d a = d (mkAct (3 * a_round a + 1) (a_par a))) by (unfold den; reflexivity); rewrite Ep in Ed; cbn [List.map exec_is]; rewrite <- Ed; change (f_i (fo a)) with (d a) in *;
        destruct (exec_i (d a) s), (exec_i (d a) t); exact X).
      cbn [List.map exec_is]. change (f_i (fo a)) with (d a). unfold den. rewrite Ep. unfold exec_i, skip. simpl. destruct A as (A1 & A2 & A3). repeat split; simpl; auto.
  Qed.

  Lemma classes_sim cs : forall s t, Forall good cs -> AgreeOut T s t ->
    SameRun T (ex (flat_map (fun c => map fo (c_ms c)) cs) s) (exec_is (map d (flat_map (emit cx id) cs)) t).
  Proof.
    assert (Xapp : forall l1 l2 t, exec_is (l1 ++ l2) t = match exec_is l1 t with Some t' => exec_is l2 t' | None => None end).
    { induction l1 as [|i l1 IH]; intros l2 t; simpl; auto. destruct (exec_i i t); auto. }
    induction cs as [|c cs IH]; intros s t G A; cbn [flat_map]; auto. inversion G; subst.
    rewrite ex_app, map_app, Xapp. pose proof (class_sim c s t H1 A) as X.
    destruct (ex (map fo (c_ms c)) s), (exec_is (map d (emit cx id c)) t); simpl in X; try tauto. apply IH; auto.
  Qed.

  (* footprint of a class *)
  Definition CW (c : cls) : area := fun x => (exists y, In y (c_ms c) /\ WR y x) \/
    (is_merged c = true /\ region (place id + c_off c * cx_es cx) (csum (c_ms c) * cx_es cx) x).
  Definition CR (c : cls) : area := fun x => (exists y, In y (c_ms c) /\ RD y x) \/ CW c x.
  Definition fe (c : cls) (x : action) : fi := mkF (d x) (CR c) (CW c).

  Lemma CW_dec c x : good c -> CW c x \/ ~ CW c x.
  Proof.
    intros (_ & G & _). assert (H : (exists y, In y (c_ms c) /\ WR y x) \/ ~ (exists y, In y (c_ms c) /\ WR y x)).
    { assert (G' : forall y, In y (c_ms c) -> In y l) by (intros; apply G; auto). revert G'. generalize (c_ms c). induction l0 as [|y q IH]; intros H.
      - right. intros (y & [] & _).
      - destruct (fo_frame y (H y (or_introl eq_refl))) as (_ & _ & D & _). destruct (D x) as [w|w]; simpl in w.
        + left. exists y. split; auto. left; auto.
        + destruct IH as [(z & Hz & Wz)|N]; [intros; apply H; right; auto|left; exists z; split; auto; right; auto|].
          right. intros (z & [<-|Hz] & Wz); eauto. }
    unfold CW. destruct H as [H|H]; [auto|]. destruct (is_merged c).
    - destruct (region_dec (place id + c_off c * cx_es cx) (csum (c_ms c) * cx_es cx) x); [left; auto|]. right. intros [?|[_ ?]]; auto.
    - right. intros [?|[? _]]; auto. discriminate.
  Qed.

  Lemma copyin_frame b off q : pos (alen cx) q -> (forall x, In x q -> apart (region (asrc x) (alen cx x)) (region (b + off) (tot (alen cx) q))) ->
    Frame (copyin asrc (alen cx) b off q) (fun a => exists x, In x q /\ region (asrc x) (alen cx x) a) (region (b + off) (tot (alen cx) q)).
  Proof.
    intros Pq D. unfold copyin. split; [|split; [|split; [|split]]]; simpl; try lia; auto.
    - apply region_dec.
    - intros m bs x _ Hx. apply (copy_to_spec asrc asrc (alen cx) b q off m Pq D); auto.
    - intros m m' bs _ Hm. split; auto. intros x Hx.
      destruct (copy_to_spec asrc asrc (alen cx) b q off m Pq D) as [A _]. destruct (copy_to_spec asrc asrc (alen cx) b q off m' Pq D) as [B _].
      assert (E : flat_map (fun x => rdb m (asrc x) (alen cx x)) q = flat_map (fun x => rdb m' (asrc x) (alen cx x)) q).
      { rewrite !flat_map_concat_map. f_equal. apply map_ext_in. intros y Hy. apply rdb_ext. intros a Ha. apply Hm. eauto. }
      rewrite <- A, <- B in E. unfold region in Hx.
      replace x with (b + off + (x - (b + off))) by lia. rewrite <- (rdb_nth _ (b + off) (tot (alen cx) q)) by lia. rewrite E. rewrite rdb_nth by lia. auto.
  Qed.
  Lemma copyout_frame b off q : pos (alen cx) q -> (forall x, In x q -> apart (region (adst x) (alen cx x)) (region (b + off) (tot (alen cx) q))) ->
    ForallOrdPairs (fun x y => apart (region (adst x) (alen cx x)) (region (adst y) (alen cx y))) q ->
    Frame (copyout adst (alen cx) b off q) (region (b + off) (tot (alen cx) q)) (fun a => exists x, In x q /\ region (adst x) (alen cx x) a).
  Proof.
    intros Pq D O. unfold copyout. split; [|split; [|split; [|split]]]; simpl; try lia; auto.
    - intros x. clear. induction q as [|y q IH]; [right; intros (? & [] & _)|]. destruct (region_dec (adst y) (alen cx y) x) as [r|r]; [left; exists y; simpl; auto|].
      destruct IH as [(z & Hz & Rz)|N]; [left; exists z; simpl; auto|]. right. intros (z & [<-|Hz] & Rz); eauto.
    - intros m bs x _ Hx. apply (copy_from_spec adst adst (alen cx) b q off m Pq D O); auto. intros y Hy Hr. apply Hx. eauto.
    - intros m m' bs _ Hm. split; auto. intros x (y & Hy & Hr). apply in_split in Hy as (q1 & q2 & Eq).
      destruct (copy_from_spec adst adst (alen cx) b q off m Pq D O) as [A _]. destruct (copy_from_spec adst adst (alen cx) b q off m' Pq D O) as [B _].
      rewrite (A q1 y q2 x Eq Hr), (B q1 y q2 x Eq Hr). apply Hm. unfold region in *. rewrite Eq, tot_app. simpl.
      rewrite Eq in Pq. apply Forall_app in Pq as [P1 P2]. inversion P2; subst. pose proof (tot_nonneg _ _ P1). pose proof (tot_nonneg _ _ H2). lia.
  Qed.

  Lemma fe_frame c x : good c -> In x (emit cx id c) -> ffr (fe c x).
  Proof.
    intros G Hx. unfold ffr, fe. simpl.
    assert (Hsub : forall i r w, Frame i r w -> (forall a, r a -> CR c a) -> (forall a, w a -> CW c a) -> Frame i (CR c) (CW c)).
    { intros i r w F A B. eapply Frame_mono; eauto; [intros; left; right; auto|intros; apply CW_dec; auto]. }
    destruct (is_merged c) eqn:M.
    - destruct (merged_kind c G M) as [k Kk]. pose proof G as ((ms & Ems) & G1 & _ & _ & G2 & G3). specialize (G2 M).
      assert (K : kind_of (a_par (c_rep c)) = Some k) by (apply Kk; rewrite Ems; left; auto).
      destruct (emit_merged c k M K) as (E0 & E1 & E2).
      assert (Pm : pos (alen cx) (c_ms c)) by (apply alen_pos; intros; apply G1; auto).
      assert (Hd : In (d x) (map d (e0 cx id c)) \/ In (d x) (map d (e1 cx id c)) \/ In (d x) (map d (e2 cx id c))).
      { unfold emit in Hx. rewrite !in_app_iff in Hx. destruct Hx as [Hx|[Hx|Hx]]; apply (in_map d) in Hx; auto. }
      rewrite E0, E1, E2 in Hd.
      assert (Hregion : forall a, region (place id + c_off c * cx_es cx) (tot (alen cx) (c_ms c)) a -> CW c a) by (intros a Ha; right; rewrite tot_alen in Ha; auto).
      assert (Hrd : forall y, In y (c_ms c) -> gi cx (c_rep c) = true -> forall a, region (asrc y) (alen cx y) a -> RD y a).
      { intros y Hy Hg a Ha. destruct (Kk y Hy) as (_ & K2 & _ & K4). unfold RD. rewrite K4. split; auto. rewrite K2; auto. }
      assert (Hwr : forall y, In y (c_ms c) -> wo cx (c_rep c) = true -> forall a, region (adst y) (alen cx y) a -> WR y a).
      { intros y Hy Hg a Ha. destruct (Kk y Hy) as (_ & _ & K3 & K4). unfold WR. rewrite K4. split; auto. rewrite K3; auto. }
      destruct Hd as [Hd|[Hd|Hd]].
      + destruct (gi cx (c_rep c)) eqn:Eg; [|destruct Hd]. destruct Hd as [<-|[]].
        eapply Hsub; [apply copyin_frame; auto| |].
        * intros y Hy a Ha Hr. destruct (fo_away y (proj1 (G1 y Hy))) as [W _]. apply (W a); [apply (Hrd y Hy); auto|]. apply G2. rewrite <- tot_alen. auto.
        * intros a (y & Hy & Ha). left. exists y. split; auto.
        * auto.
      + destruct Hd as [<-|[]]. eapply Hsub; [apply uni_frame; apply tot_nonneg; auto| |].
        * intros a [_ Ha]. right. auto.
        * intros a [_ Ha]. auto.
      + destruct (wo cx (c_rep c)) eqn:Eg; [|destruct Hd]. destruct Hd as [<-|[]].
        eapply Hsub; [apply copyout_frame; auto| |].
        * intros y Hy a Ha Hr. destruct (fo_away y (proj1 (G1 y Hy))) as [_ W]. apply (W a); [apply (Hwr y Hy); auto|]. apply G2. rewrite <- tot_alen. auto.
        * assert (Hq : forall y, In y (c_ms c) -> mergeable (a_par y) = true /\ a_round y = a_round (c_rep c)) by (intros y Hy; split; [apply Kk|apply G1]; auto).
          clear -G3 Hq Hwr. induction G3 as [|y q Hy O IH]; constructor.
          -- rewrite Forall_forall in *. intros z Hz a Ha Hb. destruct (Hy z Hz) as [(_ & W & _) _].
             ++ rewrite (proj2 (Hq y (or_introl eq_refl))), (proj2 (Hq z (or_intror Hz))). auto.
             ++ rewrite (proj1 (Hq y (or_introl eq_refl))). auto.
             ++ apply (W a); [apply (Hwr y (or_introl eq_refl) eq_refl); auto|apply (Hwr z (or_intror Hz) eq_refl); auto].
          -- apply IH; intros; [apply (Hwr y0 (or_intror H)); auto|apply Hq; right; auto].
        * intros a Ha. right. auto.
        * intros a (y & Hy & Ha). left. exists y. split; auto.
    - pose proof G as (_ & G1 & _ & G2 & _). rewrite (G2 M) in G1. unfold emit, e0, e1, e2 in Hx. rewrite M in Hx. cbn [andb app] in Hx. rewrite app_nil_r in Hx.
      set (a := c_rep c) in *. destruct (G1 a (or_introl eq_refl)) as [Ha _].
      assert (Ed : d x = d a).
      { destruct (a_par a) eqn:Ep; try (destruct Hx as [<-|[]]; unfold den; rewrite Ep; reflexivity). destruct Hx. }
      rewrite Ed. eapply Hsub; [apply (fo_frame a Ha)| |]; intros q Hq; left; exists a; (split; [rewrite (G2 M); left; auto|exact Hq]).
  Qed.

  Let C := classes [] l 0.
  Hypothesis (HT : forall x, region (place id) (msum C * cx_es cx) x -> T x).

  Lemma csum_nonneg ms : (forall x, In x ms -> In x l) -> 0 <= csum ms.
  Proof. intros H. apply tot_nonneg. apply Forall_forall. intros x Hx. unfold pos in P. rewrite Forall_forall in P. auto. Qed.

  Lemma good_all : Forall good C.
  Proof.
    apply Forall_forall. intros c Hc. destruct (class_in l [] 0 c Hc) as (_ & A & B & D & E).
    destruct (classes_pairs Rel l Rel_sym [] 0 Rel_all P) as [_ O]. rewrite Forall_forall in O. destruct (O c Hc) as [O1 O2].
    split; [auto|split; [auto|split; [auto|split; [auto|split]]]].
    - intros M x Hx. apply HT. unfold c_sum in O2. rewrite M in O2. fold C in O2. unfold region in *.
      assert (0 <= csum (c_ms c)) by (apply csum_nonneg; intros; apply B; auto). nia.
    - apply (classes_ms_rel Rel l [] 0 Rel_all c Hc).
  Qed.

  Definition fes (e : cls -> list action) (c : cls) : list fi := map (fe c) (e c).
  Lemma class_indep c c' : good c -> good c' -> a_round (c_rep c) = a_round (c_rep c') -> is_merged c || is_merged c' = true ->
    (forall x y, In x (c_ms c) -> In y (c_ms c') -> Rel x y /\ same_kind x y = false) -> c_off c + c_sum c <= c_off c' ->
    Indep (CR c) (CW c) (CR c') (CW c').
  Proof.
    intros G G' Er M R O.
    assert (Hm : forall c x, good c -> is_merged c = true -> In x (c_ms c) -> mergeable (a_par x) = true).
    { intros c0 x G0 M0 Hx. destruct (merged_kind c0 G0 M0) as [k K]. apply K; auto. }
    assert (I : forall x y, In x (c_ms c) -> In y (c_ms c') -> Indep (RD x) (WR x) (RD y) (WR y)).
    { intros x y Hx Hy. destruct (R x y Hx Hy) as [Rxy _]. apply Rxy.
      - destruct G as (_ & G & _). destruct G' as (_ & G' & _). rewrite (proj2 (G x Hx)), (proj2 (G' y Hy)). auto.
      - apply orb_true_iff in M as [M|M]; apply orb_true_iff; [left; apply (Hm c)|right; apply (Hm c')]; auto. }
    assert (Aw : forall c x, good c -> In x (c_ms c) -> away T (fo x)).
    { intros c0 x G0 Hx. apply fo_away. destruct G0 as (_ & G0 & _). apply G0; auto. }
    assert (Tk : forall c x, good c -> is_merged c = true -> region (place id + c_off c * cx_es cx) (csum (c_ms c) * cx_es cx) x -> T x).
    { intros c0 x G0 M0. destruct G0 as (_ & _ & _ & _ & G0 & _). apply G0; auto. }
    assert (TT : forall x, is_merged c = true -> is_merged c' = true -> region (place id + c_off c * cx_es cx) (csum (c_ms c) * cx_es cx) x ->
        region (place id + c_off c' * cx_es cx) (csum (c_ms c') * cx_es cx) x -> False).
    { intros x M1 M2 H1 H2. unfold c_sum in O. rewrite M1 in O. unfold region in *. nia. }
    repeat split; unfold CR, CW; intros a H1 H2.
    - destruct H1 as [(x & Hx & Wx)|[M1 T1]]; destruct H2 as [(y & Hy & Ry)|[(y & Hy & Wy)|[M2 T2]]].
      + destruct (I x y Hx Hy) as (A & _). apply (A a); auto.
      + destruct (I x y Hx Hy) as (_ & A & _). apply (A a); auto.
      + destruct (Aw c x G Hx) as [_ A]. apply (A a); eauto.
      + destruct (Aw c' y G' Hy) as [A _]. apply (A a); eauto.
      + destruct (Aw c' y G' Hy) as [_ A]. apply (A a); eauto.
      + eauto.
    - destruct H1 as [(x & Hx & Wx)|[M1 T1]]; destruct H2 as [(y & Hy & Wy)|[M2 T2]].
      + destruct (I x y Hx Hy) as (_ & A & _). apply (A a); auto.
      + destruct (Aw c x G Hx) as [_ A]. apply (A a); eauto.
      + destruct (Aw c' y G' Hy) as [_ A]. apply (A a); eauto.
      + eauto.
    - destruct H1 as [(y & Hy & Wy)|[M2 T2]]; destruct H2 as [(x & Hx & Rx)|[(x & Hx & Wx)|[M1 T1]]].
      + destruct (I x y Hx Hy) as (_ & _ & A). apply (A a); auto.
      + destruct (I x y Hx Hy) as (_ & A & _). apply (A a); auto.
      + destruct (Aw c' y G' Hy) as [_ A]. apply (A a); eauto.
      + destruct (Aw c x G Hx) as [A _]. apply (A a); eauto.
      + destruct (Aw c x G Hx) as [_ A]. apply (A a); eauto.
      + eauto.
  Qed.

  Lemma Indep_sym r1 w1 r2 w2 : Indep r1 w1 r2 w2 -> Indep r2 w2 r1 w1.
  Proof. intros (A & B & D). repeat split; auto. intros x H1 H2. apply (B x); auto. Qed.

  Lemma e0_none c x : In x (e0 cx id c) -> is_merged c = true /\ i_in (d x) = None /\ i_out (d x) = None.
  Proof. unfold e0. destruct (is_merged c); simpl; [|tauto]. destruct (gi cx (c_rep c)); simpl; [|tauto]. intros [<-|[]]. auto. Qed.
  Lemma e2_none c x : In x (e2 cx id c) -> is_merged c = true /\ i_in (d x) = None /\ i_out (d x) = None.
  Proof. unfold e2. destruct (is_merged c); simpl; [|tauto]. destruct (wo cx (c_rep c)); simpl; [|tauto]. intros [<-|[]]. auto. Qed.

  Lemma split_rounds r : let Cr := filter (inr r) C in
    eqv (flat_map (fes (e0 cx id)) Cr ++ flat_map (fes (e1 cx id)) Cr ++ flat_map (fes (e2 cx id)) Cr)
        (flat_map (fun c => fes (e0 cx id) c ++ fes (e1 cx id) c ++ fes (e2 cx id) c) Cr).
  Proof.
    intros Cr. pose proof (eqv_three (fes (e0 cx id)) (fes (e1 cx id)) (fes (e2 cx id)) Cr []) as X. rewrite !app_nil_r in X. apply X; clear X.
    - constructor.
    - intros c Hc. apply filter_In in Hc as [Hc _]. pose proof good_all as G. rewrite Forall_forall in G. specialize (G c Hc).
      assert (F : forall x, In x (emit cx id c) -> ffr (fe c x)) by (intros; apply fe_frame; auto). unfold emit in F.
      repeat split; apply Forall_forall; intros x Hx; apply in_map_iff in Hx as (y & <- & Hy); apply F; rewrite !in_app_iff; auto.
    - assert (Kp : ForallOrdPairs (fun c c' => (forall x y, In x (c_ms c) -> In y (c_ms c') -> Rel x y /\ same_kind x y = false) /\ c_off c + c_sum c <= c_off c') Cr)
        by (apply fop_filter; apply (classes_pairs Rel l Rel_sym [] 0 Rel_all P)).
      assert (Kg : Forall (fun c => good c /\ a_round (c_rep c) = r) Cr).
      { apply Forall_forall. intros c Hc. apply filter_In in Hc as [Hc Hr]. pose proof good_all as G. rewrite Forall_forall in G. split; auto. unfold inr, in_rd in Hr. lia. }
      induction Kp as [|c q Hc O IH]; constructor; inversion Kg as [|? ? [G1 G2] Kq]; subst; auto.
      rewrite Forall_forall in *. intros c' Hc'. destruct (Hc c' Hc') as [R Of]. destruct (Kq c' Hc') as [G1' G2'].
      assert (Z : is_merged c || is_merged c' = true -> Indep (CR c) (CW c) (CR c') (CW c')) by (intros; apply class_indep; auto).
      split; intros x y Hx Hy.
      + apply in_map_iff in Hy as (y' & <- & Hy). destruct (e0_none c' y' Hy) as (M & N1 & N2).
        assert (x = mkF (f_i x) (CR c) (CW c)) as -> by (rewrite in_app_iff in Hx; destruct Hx as [Hx|Hx]; apply in_map_iff in Hx as (x' & <- & _); reflexivity).
        split; [|split]; simpl; [|rewrite N1; intros q0 K; discriminate|rewrite N2; intros q0 K; discriminate].
        apply Indep_sym, Z. rewrite M. apply orb_true_r.
      + apply in_map_iff in Hx as (x' & <- & Hx). destruct (e2_none c x' Hx) as (M & N1 & N2). apply in_map_iff in Hy as (y' & <- & Hy).
        split; [|split]; simpl; [|rewrite N1; intros q0 K; discriminate|rewrite N2; intros q0 K; discriminate].
        apply Indep_sym, Z. rewrite M. auto.
  Qed.

  Lemma fes_map e q : map f_i (flat_map (fes e) q) = map d (flat_map e q).
  Proof.
    induction q as [|c q IH]; simpl; auto. rewrite !map_app, IH. f_equal. unfold fes. rewrite map_map. auto.
  Qed.

  Lemma round_sim r s t : AgreeOut T s t ->
    SameRun T (exec_is (map d (filter (in_rd r) l)) s)
      (exec_is (map d (flat_map (e0 cx id) (filter (inr r) C) ++ flat_map (e1 cx id) (filter (inr r) C) ++ flat_map (e2 cx id) (filter (inr r) C))) t).
  Proof.
    intros A. set (Cr := filter (inr r) C).
    assert (G : Forall good Cr) by (apply Forall_forall; intros c Hc; apply filter_In in Hc as [Hc _]; pose proof good_all as G; rewrite Forall_forall in G; auto).
    assert (S1 : SameRun none (exec_is (map d (filter (in_rd r) l)) s) (ex (flat_map (fun c => map fo (c_ms c)) Cr) s)).
    { pose proof (group_round r l [] 0 (fun x H => H) Rel_all s) as X. unfold ex at 1 in X. rewrite map_map in X.
      replace (filter (fun b => in_rd r b && np [] b) l) with (filter (in_rd r) l) in X by (apply filter_ext; intros b; simpl; rewrite andb_true_r; auto). exact X. }
    pose proof (classes_sim Cr s t G A) as S2.
    assert (S3 : SameRun none (exec_is (map d (flat_map (e0 cx id) Cr ++ flat_map (e1 cx id) Cr ++ flat_map (e2 cx id) Cr)) t) (exec_is (map d (flat_map (emit cx id) Cr)) t)).
    { pose proof (split_rounds r t) as X. unfold ex in X. rewrite !map_app, !fes_map in X. fold Cr in X. rewrite !map_app.
      replace (map d (flat_map (emit cx id) Cr)) with (map f_i (flat_map (fun c => fes (e0 cx id) c ++ fes (e1 cx id) c ++ fes (e2 cx id) c) Cr)); [exact X|].
      clear. induction Cr as [|c q IH]; simpl; auto. rewrite !map_app, IH. f_equal. unfold emit. rewrite !map_app. unfold fes. rewrite !map_map. auto. }
    eapply same_trans; [eapply same_mono; [|exact S1]; intros x []|]. eapply same_trans; [exact S2|].
    eapply same_mono; [|apply same_sym; exact S3]. intros x [].
  Qed.
End Round.
