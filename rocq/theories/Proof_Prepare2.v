(* Instructions which can be exchanged; sequences of messages before and after combining. *)
From Coq Require Import ZArith List Bool Lia ZifyBool ZifyNat Permutation Sorted.
From Verif Require Import Base Model_Space Model_Mem Model_Transition Model_Action Model_ActionTrans Model_ActionExec Model_ActionExec2 Spec_Action Spec_ActionTrans Spec_Alloc Spec_Async.
From Verif Require Import Proof_Type Proof_Comb1 Proof_Comb2 Proof_Comb3 Proof_Comb4 Proof_Comb5 Proof_Comb6 Proof_Comb7 Proof_Comb8 Proof_Alloc Proof_Action2 Proof_Async3 Prop_Combine Prop_Alloc.
Import ListNotations.
Open Scope Z_scope.

Definition Frd (i : instr) : Prop := exists r w, Frame i r w.
Definition Com (i j : instr) : Prop := exists ri wi rj wj, Frame i ri wi /\ Frame j rj wj /\ Indep ri wi rj wj /\
  diffc (i_in i) (i_in j) /\ diffc (i_out i) (i_out j).
Definition eqvi (l l' : list instr) : Prop := forall s, SameRun none (exec_is l s) (exec_is l' s).

Lemma Com_sym i j : Com i j -> Com j i.
Proof.
  intros (ri & wi & rj & wj & A & B & (C1 & C2 & C3) & D & E). exists rj, wj, ri, wi. split; auto. split; auto. split; [|split].
  - repeat split; auto. intros x H1 H2. apply (C2 x); auto.
  - intros c H1 H2. apply (D c); auto.
  - intros c H1 H2. apply (E c); auto.
Qed.
Lemma lift l : Forall Frd l -> exists fl, map f_i fl = l /\ Forall ffr fl.
Proof.
  induction l as [|i l IH]; intros H; [exists []; split; auto|]. inversion H as [|? ? (r & w & F) Hl]; subst. destruct (IH Hl) as (fl & E & G).
  exists (mkF i r w :: fl). simpl. rewrite E. split; auto.
Qed.
Lemma eqvi_refl l : eqvi l l. Proof. intros s. apply same_refl. Qed.
Lemma eqvi_trans a b c : eqvi a b -> eqvi b c -> eqvi a c. Proof. intros A B s. eapply same_trans; [apply A|apply B]. Qed.
Lemma eqvi_cons i l l' : eqvi l l' -> eqvi (i :: l) (i :: l').
Proof. intros H s. cbn [exec_is]. destruct (exec_i i s); [apply H|exact I]. Qed.
Lemma eqvi_swap i j l : Com i j -> Forall Frd l -> eqvi (i :: j :: l) (j :: i :: l).
Proof.
  intros (ri & wi & rj & wj & A & B & C & D & E) F. destruct (lift l F) as (fl & <- & G). intros s.
  apply (eqv_swap (mkF i ri wi) (mkF j rj wj) fl); auto. split; auto.
Qed.
Lemma fop_perm {A} (R : A -> A -> Prop) (l l' : list A) : (forall x y, R x y -> R y x) -> Permutation l l' -> ForallOrdPairs R l -> ForallOrdPairs R l'.
Proof.
  intros S P. induction P as [|x l l' P IH|x y l|l l' l'' P1 IH1 P2 IH2]; intros O; auto.
  - inversion O as [|? ? Ox Ol]; subst. constructor; auto. rewrite Forall_forall in *. intros y Hy. apply Ox. eapply Permutation_in; [apply Permutation_sym; eauto|auto].
  - inversion O as [|? ? Oy Ol]; subst. inversion Ol as [|? ? Ox Oll]; subst. inversion Oy; subst. constructor; [constructor; auto|]. constructor; auto.
Qed.
Lemma fop_map {A B} (f : A -> B) (R : B -> B -> Prop) l : ForallOrdPairs (fun x y => R (f x) (f y)) l -> ForallOrdPairs R (map f l).
Proof.
  induction 1 as [|a l Ha O IH]; simpl; constructor; auto. rewrite Forall_forall in *. intros y Hy. apply in_map_iff in Hy as (x & <- & Hx). auto.
Qed.
Lemma fop_impl {A} (R S : A -> A -> Prop) l : (forall x y, In x l -> In y l -> R x y -> S x y) -> ForallOrdPairs R l -> ForallOrdPairs S l.
Proof.
  intros H O. induction O as [|a l Ha O IH]; constructor.
  - rewrite Forall_forall in *. intros y Hy. apply H; simpl; auto.
  - apply IH. intros; apply H; simpl; auto.
Qed.
Lemma fop_flat {A B} (f : A -> list B) (R : B -> B -> Prop) l :
  ForallOrdPairs (fun a b => forall x y, In x (f a) -> In y (f b) -> R x y) l -> Forall (fun a => ForallOrdPairs R (f a)) l ->
  ForallOrdPairs R (flat_map f l).
Proof.
  intros O. induction O as [|a l Ha O IH]; intros F; simpl; [constructor|]. inversion F as [|? ? Fa Fl]; subst. specialize (IH Fl). rewrite Forall_forall in Ha.
  assert (Hx : forall x y, In x (f a) -> In y (flat_map f l) -> R x y). { intros x y Hx Hy. apply in_flat_map in Hy as (b & Hb & Hy). exact (Ha b Hb x y Hx Hy). }
  clear Ha F Fl. induction Fa as [|x q Hq Oq IHq]; simpl; auto. constructor.
  - apply Forall_app. split; auto. apply Forall_forall. intros y Hy. apply Hx; simpl; auto.
  - apply IHq. intros; apply Hx; simpl; auto.
Qed.
Lemma eqvi_perm l l' : Permutation l l' -> Forall Frd l -> ForallOrdPairs Com l -> eqvi l l'.
Proof.
  intros P. induction P as [|x l l' P IH|x y l|l l' l'' P1 IH1 P2 IH2]; intros F O.
  - apply eqvi_refl.
  - inversion F; inversion O; subst. apply eqvi_cons. auto.
  - inversion F as [|? ? Fy F1]; inversion O as [|? ? Oy O1]; subst. inversion F1; inversion Oy; subst. apply eqvi_swap; auto.
  - eapply eqvi_trans; [apply IH1; auto|]. apply IH2.
    + eapply Permutation_Forall; eauto.
    + eapply fop_perm; eauto using Com_sym.
Qed.
Lemma exec_agree l s t : Forall Frd l -> AgreeOut none s t -> SameRun none (exec_is l s) (exec_is l t).
Proof. intros F A. destruct (lift l F) as (fl & <- & G). apply (ex_agree none fl); auto using away_none. Qed.

(* sorting by rounds *)
Definition together (d : action -> instr) (l : list action) : Prop :=
  ForallOrdPairs (fun a b => a_round a = a_round b -> Com (d a) (d b)) l /\ Forall (fun a => Frd (d a)) l.
Lemma together_round d l r : together d l -> ForallOrdPairs Com (map d (filter (in_rd r) l)) /\ Forall Frd (map d (filter (in_rd r) l)).
Proof.
  intros [A B]. split.
  - apply fop_map. eapply fop_impl; [|apply fop_filter; exact A]. intros x y Hx Hy H. apply filter_In in Hx, Hy. unfold in_rd in *. apply H. lia.
  - apply Forall_forall. intros i Hi. apply in_map_iff in Hi as (a & <- & Ha). apply filter_In in Ha. rewrite Forall_forall in B. apply B. tauto.
Qed.
Lemma rounds_perm d l l' : Permutation l l' -> together d l -> forall rs s t, AgreeOut none s t -> SameRun none (exec_rounds d l rs s) (exec_rounds d l' rs t).
Proof.
  intros P H. induction rs as [|r rs IH]; intros s t A; [exact A|]. cbn [exec_rounds]. destruct (together_round d l r H) as [H1 H2].
  assert (X : SameRun none (exec_is (map d (filter (in_rd r) l)) s) (exec_is (map d (filter (in_rd r) l')) t)).
  { eapply same_trans; [apply exec_agree; eauto|]. apply eqvi_perm; auto. apply Permutation_map. apply perm_filter. auto. }
  destruct (exec_is (map d (filter (in_rd r) l)) s), (exec_is (map d (filter (in_rd r) l')) t); simpl in X; try tauto. apply IH. auto.
Qed.
Lemma seq_perm d l l' s : Permutation l l' -> together d l -> by_round l' -> (forall a, In a l -> 0 <= a_round a < 255) ->
  SameRun none (exec_seq d l s) (exec_is (map d l') s).
Proof.
  intros P H S R. rewrite <- exec_seq_sorted; auto.
  - apply rounds_perm; auto. apply agree_refl.
  - intros a Ha. apply R. eapply Permutation_in; [apply Permutation_sym; eauto|auto].
Qed.

(* ---- the actions after buffers are allocated ---- *)
Definition plain (p : apar) : Prop :=
  match p with BufSend _ n _ | BufRecv _ n _ => 0 < n | CopyToBuf _ _ | CopyFromBuf _ _ => True | _ => False end.
Lemma plain_den cx place place' T oth a : plain (a_par a) -> den2 cx place T oth a = den2 cx place' T oth a.
Proof. destruct a as [r p]. unfold den2, den. cbn [a_par]. destruct p; simpl; tauto. Qed.
Lemma plain_nop a : plain (a_par a) -> not_nop a = true.
Proof. unfold not_nop. destruct (a_par a); simpl; tauto. Qed.

Lemma alloc_plain es nres nbuf l : forall res b r, (forall a, In a l -> plain (a_par a)) -> alloc_pass es nres nbuf l res b r = Ok (l, b, r).
Proof.
  induction l as [|a l IH]; intros res b r H; cbn [alloc_pass]; auto. pose proof (H a (or_introl eq_refl)) as Ha.
  destruct (a_par a) eqn:E; simpl in Ha; try tauto; cbn [rb_ref]; rewrite IH by (intros; apply H; right; auto); reflexivity.
Qed.
Lemma alloc_none cx b s : (forall a, In a (as_acts s) -> plain (a_par a)) -> Z.of_nat (length (as_bufs s)) < 5 -> alloc_buffer cx b s = Ok (false, s).
Proof.
  intros H Hb. unfold alloc_buffer. replace (_ <? ASEQ_BUFFER_MAX) with true by (unfold ASEQ_BUFFER_MAX; lia). cbn [cassert]. rewrite alloc_plain by auto. destruct s; reflexivity.
Qed.
Lemma split_none cx s : (forall a, In a (as_acts s) -> plain (a_par a)) -> split_reduce cx s = Ok (false, s).
Proof.
  intros H. unfold split_reduce. replace (existsb is_groupReduce (as_acts s)) with false; auto. symmetry. apply not_true_iff_false. intros E.
  apply existsb_exists in E as (a & Ha & E). specialize (H a Ha). unfold is_groupReduce in E. destruct (a_par a); simpl in H; try tauto; discriminate.
Qed.
Lemma allred_none cx s : (forall a, In a (as_acts s) -> plain (a_par a) /\ a_round a < 255) -> replace_allreduce cx s = Ok (false, s).
Proof.
  intros H. unfold replace_allreduce. assert (E : exists l', allred_loop cx (as_acts s) = Ok (l', false)).
  { revert H. generalize (as_acts s). induction l as [|a l IH]; intros H; cbn [allred_loop]; [eauto|]. destruct (H a (or_introl eq_refl)) as [Ha Hr].
    destruct IH as (l' & E); [intros; apply H; right; auto|].
    assert (E1 : exists x, allred_one cx a = Ok (x, false)).
    { unfold allred_one, aseq_add, add_action. destruct (a_par a) eqn:Ep; simpl in Ha; try tauto; (replace (-1 <? 0) with true by lia); cbn [obind]; (replace (a_round a <? 255) with true by lia); cbn [cassert obind]; eauto. }
    destruct E1 as (x & ->). cbn [obind]. rewrite E. cbn [obind fst snd orb]. eauto. }
  destruct E as (l' & ->). reflexivity.
Qed.

(* no two messages of the same kind: nothing to combine *)
Definition kinds_differ (l : list action) : Prop := ForallOrdPairs (fun a b => same_kind a b = false) l.
Lemma same_kind_sym a b : same_kind a b = same_kind b a.
Proof. destruct (same_kind a b) eqn:E, (same_kind b a) eqn:E'; auto; apply sk_sym in E || apply sk_sym in E'; congruence. Qed.
Lemma no_merge l : kinds_differ l -> forall prev off c, In c (classes prev l off) -> is_merged c = false.
Proof.
  induction 1 as [|a l Ha O IH]; intros prev off c Hc; cbn [classes] in Hc; [destruct Hc|]. destruct (np prev a); [|eauto]. destruct Hc as [<-|Hc]; [|eauto].
  unfold is_merged. cbn [c_ms]. rewrite members_cons. rewrite filter_none; auto. rewrite Forall_forall in Ha. auto.
Qed.
Lemma tot_zero {A} (f : A -> Z) l : (forall x, In x l -> f x = 0) -> tot f l = 0.
Proof. induction l as [|a l IH]; intros H; simpl; auto. rewrite IH by (intros; apply H; right; auto). rewrite H by (left; auto). auto. Qed.
Lemma combine_none cx s : 0 < cx_es cx -> kinds_differ (as_acts s) -> (forall a, In a (as_acts s) -> plain (a_par a)) -> combine cx s = Ok (false, s).
Proof.
  intros He K H. unfold combine. assert (P : pos a_cnt (as_acts s)).
  { apply Forall_forall. intros a Ha. specialize (H a Ha). unfold a_cnt, par_cnt. destruct (a_par a); simpl in H; try tauto; lia. }
  assert (M : msum (classes [] (as_acts s) 0) = 0). { apply tot_zero. intros c Hc. unfold c_sum. rewrite (no_merge _ K _ _ _ Hc). auto. }
  assert (R : rsum cx (classes [] (as_acts s) 0) = 0). { apply tot_zero. intros c Hc. unfold crange. rewrite (no_merge _ K _ _ _ Hc). auto. }
  rewrite (size_eq cx (as_acts s) [] 0 0 0); auto; try lia.
  - rewrite M, R. reflexivity.
  - apply Forall_forall. intros a Ha. specialize (H a Ha). intros _. unfold gives_input, wants_output. destruct (a_par a); simpl in H; try tauto; eauto.
Qed.
