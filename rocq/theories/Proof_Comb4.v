(* What laik_aseq_combineActions generates: classes of actions of the same kind. *)
From Coq Require Import ZArith List Bool Lia ZifyBool ZifyNat Permutation.
From Verif Require Import Base Model_Space Model_Mem Model_Transition Model_Action Model_ActionTrans Model_ActionExec Spec_ActionTrans.
From Verif Require Import Proof_Type Proof_Comb1 Proof_Comb2 Proof_Comb3.
Import ListNotations.
Open Scope Z_scope.

Lemma redop_eqb_eq a b : redop_eqb a b = true <-> a = b.
Proof.
  destruct a, b; simpl; split; intros H; try discriminate; auto.
  - apply Nat.eqb_eq in H. congruence.
  - injection H as ->. apply Nat.eqb_refl.
Qed.

(* kinds *)
Inductive kind := KS (t : Z) | KR (f : Z) | KG (i o : Z) (r : redop) | KA (root : Z) (r : redop).
Definition kind_of (p : apar) : option kind :=
  match p with
  | BufSend _ _ t => Some (KS t) | BufRecv _ _ f => Some (KR f)
  | GroupReduce i o _ _ _ r => Some (KG i o r) | Reduce _ _ _ root r => Some (KA root r)
  | _ => None
  end.
Lemma kind_mergeable p : mergeable p = true <-> exists k, kind_of p = Some k.
Proof. destruct p; simpl; split; intros H; try discriminate; eauto; destruct H; discriminate. Qed.

Lemma same_kind_iff a b : same_kind a b = true <->
  exists k, kind_of (a_par a) = Some k /\ kind_of (a_par b) = Some k /\ a_round a = a_round b.
Proof.
  unfold same_kind. split.
  - destruct (a_par a) eqn:Ea; try discriminate; destruct (a_par b) eqn:Eb; try discriminate; intros H;
      rewrite ?andb_true_iff, ?redop_eqb_eq, ?Z.eqb_eq in H; simpl; eexists; split; try reflexivity; split; try lia; intuition congruence.
  - intros (k & H1 & H2 & H3). destruct (a_par a); try discriminate; destruct (a_par b); simpl in *; try congruence;
      rewrite <- H1 in H2; injection H2 as H2; subst; rewrite H3, ?Z.eqb_refl; simpl; rewrite ?andb_true_iff, ?redop_eqb_eq, ?Z.eqb_eq; intuition congruence.
Qed.
Lemma sk_sym a b : same_kind a b = true -> same_kind b a = true.
Proof. rewrite !same_kind_iff. intros (k & A & B & C). exists k. auto. Qed.
Lemma sk_trans a b c : same_kind a b = true -> same_kind b c = true -> same_kind a c = true.
Proof. rewrite !same_kind_iff. intros (k & A & B & C) (k' & D & E & F). exists k. split; auto. split; congruence. Qed.
Lemma sk_refl a : mergeable (a_par a) = true -> same_kind a a = true.
Proof. rewrite same_kind_iff, kind_mergeable. intros (k & H). exists k. auto. Qed.
Lemma sk_round a b : same_kind a b = true -> a_round a = a_round b.
Proof. rewrite same_kind_iff. intros (k & _ & _ & H). auto. Qed.
Lemma sk_merge a b : same_kind a b = true -> mergeable (a_par a) = true /\ mergeable (a_par b) = true.
Proof. rewrite same_kind_iff, !kind_mergeable. intros (k & H1 & H2 & H). eauto. Qed.

(* not of the same kind as an earlier action *)
Definition np (prev : list action) (b : action) : bool := negb (existsb (fun p => same_kind p b) prev).
Lemma np_cons a prev b : np (a :: prev) b = negb (same_kind a b) && np prev b.
Proof. unfold np. simpl. apply negb_orb. Qed.
Lemma np_same prev a b : same_kind a b = true -> np prev a = np prev b.
Proof.
  intros H. unfold np. f_equal. induction prev as [|p prev IH]; simpl; auto. rewrite IH. f_equal.
  destruct (same_kind p a) eqn:E1, (same_kind p b) eqn:E2; auto.
  - rewrite (sk_trans p a b) in E2; auto.
  - apply sk_sym in H. rewrite (sk_trans p b a) in E1; auto.
Qed.

Record cls := mkC { c_rep : action; c_ms : list action; c_off : Z }.
Definition csum (ms : list action) : Z := tot a_cnt ms.
Definition is_merged (c : cls) : bool := (1 <? length (c_ms c))%nat.
Definition c_sum (c : cls) : Z := if is_merged c then csum (c_ms c) else 0.
Definition members (a : action) (l : list action) : list action := if mergeable (a_par a) then filter (same_kind a) (a :: l) else [a].
Fixpoint classes (prev l : list action) (off : Z) : list cls :=
  match l with
  | [] => []
  | a :: l' =>
      if np prev a then
        let c := mkC a (members a l') off in c :: classes (a :: prev) l' (off + c_sum c)
      else classes (a :: prev) l' off
  end.

Lemma members_cons a l : members a l = a :: filter (same_kind a) l.
Proof.
  unfold members. destruct (mergeable (a_par a)) eqn:E.
  - simpl. rewrite sk_refl; auto.
  - f_equal. symmetry. induction l as [|b l IH]; simpl; auto. destruct (same_kind a b) eqn:K; auto. apply sk_merge in K as [K _]. congruence.
Qed.

Lemma filter_np_in a prev l : np prev a = false -> filter (np (a :: prev)) l = filter (np prev) l.
Proof.
  intros H. apply filter_ext. intros b. rewrite np_cons. destruct (same_kind a b) eqn:E; auto. rewrite <- (np_same prev a b E), H. auto.
Qed.

Lemma filter_split {A} (P Q : A -> bool) l : Permutation (filter P l) (filter (fun x => P x && Q x) l ++ filter (fun x => P x && negb (Q x)) l).
Proof.
  induction l as [|x l IH]; simpl; auto. destruct (P x); simpl; auto. destruct (Q x); simpl; [constructor; auto|].
  rewrite IH. apply Permutation_middle.
Qed.

Lemma filter_same a prev l : np prev a = true -> filter (same_kind a) l = filter (fun x => np prev x && same_kind a x) l.
Proof. intros H. apply filter_ext. intros b. destruct (same_kind a b) eqn:E; [|rewrite andb_false_r; auto]. rewrite <- (np_same prev a b E), H. auto. Qed.
Lemma filter_rest a prev l : filter (np (a :: prev)) l = filter (fun x => np prev x && negb (same_kind a x)) l.
Proof. apply filter_ext. intros b. rewrite np_cons. apply andb_comm. Qed.

Lemma classes_perm l : forall prev off, Permutation (flat_map c_ms (classes prev l off)) (filter (np prev) l).
Proof.
  induction l as [|a l IH]; intros prev off; simpl; auto. destruct (np prev a) eqn:E; simpl.
  - rewrite members_cons, IH. simpl. constructor. rewrite (filter_same a prev l E), (filter_rest a prev l). symmetry. apply filter_split.
  - rewrite IH, filter_np_in; auto.
Qed.

Lemma tot_perm {A} (len : A -> Z) l l' : Permutation l l' -> tot len l = tot len l'.
Proof. induction 1; simpl; lia. Qed.
Lemma tot_filter {A} (len : A -> Z) P l : pos len l -> tot len (filter P l) <= tot len l.
Proof. induction 1 as [|x l H HH IH]; simpl; [lia|]. destruct (P x); simpl; lia. Qed.
Lemma pos_filter {A} (len : A -> Z) P l : pos len l -> pos len (filter P l).
Proof. unfold pos. rewrite !Forall_forall. intros H x Hx. apply filter_In in Hx as [Hx _]. auto. Qed.

Definition msum (cs : list cls) : Z := tot c_sum cs.
Lemma msum_le l : forall prev off, pos a_cnt l -> 0 <= msum (classes prev l off) <= csum l.
Proof.
  intros prev off P. assert (K : msum (classes prev l off) <= tot a_cnt (flat_map c_ms (classes prev l off)) /\ 0 <= msum (classes prev l off)).
  { assert (G : forall cs, (forall c, In c cs -> pos a_cnt (c_ms c)) -> msum cs <= tot a_cnt (flat_map c_ms cs) /\ 0 <= msum cs).
    { induction cs as [|c cs IH]; intros H; unfold msum; simpl; [lia|]. rewrite tot_app. specialize (IH (fun c Hc => H c (or_intror Hc))). unfold msum in IH.
      assert (0 <= tot a_cnt (c_ms c)) by (apply tot_nonneg; exact (H c (or_introl eq_refl))). assert (0 <= c_sum c <= tot a_cnt (c_ms c)) by (unfold c_sum, csum; destruct (is_merged c); lia). lia. }
    apply G. intros c Hc. apply Forall_forall. intros x Hx. unfold pos in P. rewrite Forall_forall in P. apply P.
    assert (Hi : In x (filter (np prev) l)) by (eapply Permutation_in; [apply (classes_perm l prev off)|apply in_flat_map; eauto]).
    apply filter_In in Hi. tauto. }
  rewrite (tot_perm _ _ _ (classes_perm l prev off)) in K. pose proof (tot_filter a_cnt (np prev) l P). unfold csum. lia.
Qed.

(* facts about a class *)
Lemma class_in l : forall prev off c, In c (classes prev l off) ->
  np prev (c_rep c) = true /\ (exists ms, c_ms c = c_rep c :: ms) /\ (forall x, In x (c_ms c) -> In x l /\ a_round x = a_round (c_rep c)) /\
  (is_merged c = true -> forall x, In x (c_ms c) -> same_kind (c_rep c) x = true) /\
  (is_merged c = false -> c_ms c = [c_rep c]).
Proof.
  induction l as [|a l IH]; intros prev off c; simpl; [tauto|]. destruct (np prev a) eqn:E.
  - intros [<-|H].
    + simpl. rewrite members_cons. split; auto. split; [eauto|]. split; [|split].
      * intros x [<-|Hx]; auto. apply filter_In in Hx as [Hx Hk]. split; auto. symmetry. apply sk_round. auto.
      * unfold is_merged. simpl. rewrite ?members_cons. simpl. intros Hl x [<-|Hx]; [|apply filter_In in Hx; tauto].
        destruct (filter (same_kind a) l) as [|y q] eqn:Ef; [simpl in Hl; discriminate|].
        assert (Hy : In y (filter (same_kind a) l)) by (rewrite Ef; left; auto). apply filter_In in Hy as [_ Hy]. apply sk_merge in Hy as [Hy _]. apply sk_refl; auto.
      * unfold is_merged. simpl. rewrite ?members_cons. destruct (filter (same_kind a) l); simpl; auto. discriminate.
    + destruct (IH (a :: prev) _ c H) as (A & B & C & D). rewrite np_cons in A. apply andb_true_iff in A as [A1 A2]. repeat split; auto; try (apply C; auto). right. apply C; auto. apply D. apply D.
  - intros H. destruct (IH (a :: prev) _ c H) as (A & B & C & D). rewrite np_cons in A. apply andb_true_iff in A as [A1 A2]. repeat split; auto; try (apply C; auto). right. apply C; auto. apply D. apply D.
Qed.

Lemma fop_in {A} (R : A -> A -> Prop) l : ForallOrdPairs R l -> (forall x y, R x y -> R y x) -> forall x y, In x l -> In y l -> x <> y -> R x y.
Proof.
  intros O S. induction O as [|a l Ha O IH]; simpl; [tauto|]. rewrite Forall_forall in Ha. intros x y [<-|Hx] [<-|Hy] N; auto. tauto.
Qed.

(* different classes: different actions, not of the same kind, areas one after the other *)
Lemma classes_pairs (R : action -> action -> Prop) l : (forall x y, R x y -> R y x) -> forall prev off, ForallOrdPairs R l -> pos a_cnt l ->
  ForallOrdPairs (fun c c' => (forall x y, In x (c_ms c) -> In y (c_ms c') -> R x y /\ same_kind x y = false) /\ c_off c + c_sum c <= c_off c') (classes prev l off) /\
  Forall (fun c => off <= c_off c /\ c_off c + c_sum c <= off + msum (classes prev l off)) (classes prev l off).
Proof.
  intros S. induction l as [|a l IH]; intros prev off O P; simpl; [split; constructor|].
  inversion O as [|? ? Oa Ol]; subst. inversion P as [|? ? Pa Pl]; subst. rewrite Forall_forall in Oa. destruct (np prev a) eqn:E.
  - set (c := mkC a (members a l) off).
    assert (Hc : 0 <= c_sum c).
    { unfold c_sum, csum. destruct (is_merged c); [|lia]. apply tot_nonneg. unfold c. simpl. rewrite members_cons. constructor; auto. apply pos_filter; auto. }
    destruct (IH (a :: prev) (off + c_sum c) Ol Pl) as [I1 I2]. split.
    + constructor; auto. apply Forall_forall. intros c' Hc'. rewrite Forall_forall in I2. destruct (I2 c' Hc') as [J1 J2].
      split; [|simpl; lia].
      intros x y Hx Hy. destruct (class_in l _ _ c' Hc') as (A & _ & B & C & D).
      rewrite np_cons in A. apply andb_true_iff in A as [A1 A2]. apply negb_true_iff in A1.
      assert (Nay : same_kind a y = false).
      { destruct (is_merged c') eqn:M.
        - destruct (same_kind a y) eqn:Kay; auto. rewrite (sk_trans a y (c_rep c') Kay) in A1; [discriminate|]. apply sk_sym, C; auto.
        - rewrite (D eq_refl) in Hy. destruct Hy as [<-|[]]. auto. }
      unfold c in Hx. simpl in Hx. rewrite members_cons in Hx. destruct Hx as [<-|Hx].
      * split; auto. apply Oa. apply B; auto.
      * apply filter_In in Hx as [Hx Kx]. assert (Kxy : same_kind x y = false).
        { destruct (same_kind x y) eqn:K; auto. rewrite (sk_trans a x y) in Nay; auto. }
        split; auto. apply (fop_in R l); auto. apply B; auto. intros ->. rewrite sk_refl in Kxy; [discriminate|]. apply sk_merge in Kx as [_ Kx]. auto.
    + change (msum (c :: classes (a :: prev) l (off + c_sum c))) with (c_sum c + msum (classes (a :: prev) l (off + c_sum c))).
      pose proof (msum_le l (a :: prev) (off + c_sum c) Pl) as Hm.
      constructor; [simpl; lia|]. eapply Forall_impl; [|exact I2]. intros c' H. cbv beta in H. lia.
  - apply IH; auto.
Qed.

(* plain form of what gets emitted *)
Definition ok_true (o : outcome bool) : bool := match o with Ok b => b | _ => false end.
Definition gi (cx : actx) (a : action) : bool := ok_true (gives_input cx (a_par a)).
Definition wo (cx : actx) (a : action) : bool := ok_true (wants_output cx (a_par a)).
Definition rpar (p : apar) (id off count : Z) : apar :=
  match p with
  | BufSend _ _ t => RBufSend id off count t
  | BufRecv _ _ f => RBufRecv id off count f
  | GroupReduce i o _ _ _ r => RBufGroupReduce i o id off count r
  | Reduce _ _ _ root r => RBufReduce id off count root r
  | p => p
  end.
Section Emit.
  Variables (cx : actx) (id : Z).
  Let es := cx_es cx.
  Definition alen (x : action) : Z := a_cnt x * cx_es cx.
  Definition e0 (c : cls) : list action :=
    if is_merged c && gi cx (c_rep c) then [mkAct (3 * a_round (c_rep c)) (CopyToRBuf (ents alen (fun x => src_addr (a_par x)) (c_off c * es) (c_ms c)) id 0)] else [].
  Definition e1 (c : cls) : list action :=
    if is_merged c then [mkAct (3 * a_round (c_rep c) + 1) (rpar (a_par (c_rep c)) id (c_off c * es) (csum (c_ms c)))]
    else match a_par (c_rep c) with Nop => [] | p => [mkAct (3 * a_round (c_rep c) + 1) p] end.
  Definition e2 (c : cls) : list action :=
    if is_merged c && wo cx (c_rep c) then [mkAct (3 * a_round (c_rep c) + 2) (CopyFromRBuf (ents alen (fun x => dst_addr (a_par x)) (c_off c * es) (c_ms c)) id 0)] else [].
  Definition emit (c : cls) : list action := e0 c ++ e1 c ++ e2 c.

  Lemma u32_id x : 0 <= x < 2 ^ 32 -> u32 x = x.
  Proof. apply Z.mod_small. Qed.

  Lemma ces_plain addr ms : 0 < es -> pos a_cnt ms -> forall off, 0 <= off -> (off + csum ms) * es < 2 ^ 32 ->
    ces es addr off ms = ents alen (fun x => addr (a_par x)) (off * es) ms.
  Proof.
    intros He P. induction P as [|x ms Px P IH]; intros off Ho B; simpl; auto.
    unfold csum in B. simpl in B. pose proof (tot_nonneg a_cnt ms P) as Ht.
    assert (0 <= a_cnt x * es) by nia.
    f_equal.
    - f_equal; [apply u32_id; nia|]. unfold alen. fold es. apply u32_id. nia.
    - rewrite u32_id by nia. rewrite IH; [|lia|unfold csum; replace (off + a_cnt x + tot a_cnt ms) with (off + (a_cnt x + tot a_cnt ms)) by lia; auto].
      f_equal. unfold alen. fold es. lia.
  Qed.

  Lemma cnt_sum_plain ms : pos a_cnt ms -> csum ms < 2 ^ 32 -> cnt_sum ms = csum ms.
  Proof.
    intros P. unfold cnt_sum. assert (G : forall acc, 0 <= acc -> acc + csum ms < 2 ^ 32 -> fold_left (fun s a => u32 (s + a_cnt a)) ms acc = acc + csum ms).
    { induction P as [|x ms Px P IH]; intros acc Ha Hb; simpl; [unfold csum; simpl; lia|]. unfold csum in *. simpl in Hb. pose proof (tot_nonneg a_cnt ms P) as Ht.
      rewrite u32_id by lia. rewrite IH; [simpl; lia|lia|lia]. }
    intros H. rewrite G; lia.
  Qed.
End Emit.
