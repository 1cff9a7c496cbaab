(* Instructions which can be exchanged. *)
From Coq Require Import ZArith List Bool Lia ZifyBool ZifyNat.
From Verif Require Import Base Model_Mem Model_Transition Model_Action Model_ActionTrans Model_ActionExec Spec_ActionTrans Proof_Comb1.
Import ListNotations.
Open Scope Z_scope.

(* an instruction with what it reads and writes *)
Record fi := mkF { f_i : instr; f_rd : area; f_wr : area }.
Definition ffr (x : fi) : Prop := Frame (f_i x) (f_rd x) (f_wr x).
Definition diffc (o o' : option chan) : Prop := forall c, o = Some c -> o' <> Some c.
Definition Ind (x y : fi) : Prop :=
  Indep (f_rd x) (f_wr x) (f_rd y) (f_wr y) /\ diffc (i_in (f_i x)) (i_in (f_i y)) /\ diffc (i_out (f_i x)) (i_out (f_i y)).
Definition ex (l : list fi) (s : pst) : option pst := exec_is (map f_i l) s.
Definition none : area := fun _ => False.

Lemma agree_refl T s : AgreeOut T s s.
Proof. repeat split; auto. Qed.
Lemma agree_trans T a b c : AgreeOut T a b -> AgreeOut T b c -> AgreeOut T a c.
Proof. intros (A & B & C) (D & E & F). repeat split; intros; [rewrite A, D|rewrite B|rewrite C]; auto. Qed.
Lemma agree_sym T a b : AgreeOut T a b -> AgreeOut T b a.
Proof. intros (A & B & C). repeat split; intros; symmetry; auto. Qed.
Lemma agree_mono (T T' : area) a b : (forall x, T x -> T' x) -> AgreeOut T a b -> AgreeOut T' a b.
Proof. intros H (A & B & C). repeat split; auto. Qed.
Lemma same_refl T o : SameRun T o o.
Proof. destruct o; simpl; auto using agree_refl. Qed.
Lemma same_trans T a b c : SameRun T a b -> SameRun T b c -> SameRun T a c.
Proof. destruct a, b, c; simpl; try tauto. apply agree_trans. Qed.
Lemma same_sym T a b : SameRun T a b -> SameRun T b a.
Proof. destruct a, b; simpl; try tauto. apply agree_sym. Qed.
Lemma same_mono (T T' : area) a b : (forall x, T x -> T' x) -> SameRun T a b -> SameRun T' a b.
Proof. destruct a, b; simpl; try tauto. apply agree_mono. Qed.

Definition avail (i : instr) (s : pst) : list Z := match i_in i with Some c => p_in s c | None => [] end.

Lemma exec_i_agree T i rd wr s t : Frame i rd wr -> apart rd T -> apart wr T -> AgreeOut T s t ->
  SameRun T (exec_i i s) (exec_i i t).
Proof.
  intros (P0 & _ & D & W1 & W2) A1 A2 (M & I & O). unfold exec_i.
  assert (Ea : match i_in i with Some c => p_in s c | None => [] end = match i_in i with Some c => p_in t c | None => [] end)
    by (destruct (i_in i); auto).
  rewrite <- Ea. destruct (Z.of_nat _ <? _) eqn:El; simpl; auto.
  set (bs := firstn _ _). assert (Hl : 0 <= i_take i -> Z.of_nat (length bs) = i_take i) by (intros; unfold bs, bytes; rewrite firstn_length; lia).
  assert (E : forall x, rd x -> p_mem s x = p_mem t x) by (intros x Hx; apply M; apply A1; auto).
  specialize (Hl P0). destruct (W2 (p_mem s) (p_mem t) bs Hl E) as [S1 S2].
  repeat split; simpl.
  - intros x Hx. destruct (D x) as [d|d]; [auto|rewrite !W1; auto].
  - intros c. destruct (on c (i_in i)); rewrite I; auto.
  - intros c. destruct (on c (i_out i)); rewrite O; [rewrite S1|]; auto.
Qed.

Definition away (T : area) (x : fi) : Prop := apart (f_rd x) T /\ apart (f_wr x) T.
Lemma ex_agree T l : forall s t, Forall ffr l -> Forall (away T) l -> AgreeOut T s t -> SameRun T (ex l s) (ex l t).
Proof.
  induction l as [|x l IH]; intros s t F A E; unfold ex; simpl; auto.
  inversion F; subst. inversion A as [|? ? [A1 A2] A3]; subst.
  pose proof (exec_i_agree T _ _ _ s t H1 A1 A2 E) as H. destruct (exec_i (f_i x) s), (exec_i (f_i x) t); simpl in H; try tauto.
  apply IH; auto.
Qed.
Lemma away_none l : Forall (away none) l.
Proof. apply Forall_forall. intros x _. split; intros y _ H; apply H. Qed.

Lemma ex_app l1 l2 s : ex (l1 ++ l2) s = match ex l1 s with Some s' => ex l2 s' | None => None end.
Proof.
  unfold ex. revert s. induction l1 as [|x l1 IH]; intros s; simpl; auto. destruct (exec_i (f_i x) s); auto.
Qed.

(* replace the front, keep the rest *)
Lemma ex_front T l1 l1' l2 s t : SameRun T (ex l1 s) (ex l1' t) -> Forall ffr l2 -> Forall (away T) l2 ->
  SameRun T (ex (l1 ++ l2) s) (ex (l1' ++ l2) t).
Proof.
  intros H F A. rewrite !ex_app. destruct (ex l1 s), (ex l1' t); simpl in H; try tauto. apply ex_agree; auto.
Qed.

Lemma on_some c o : on c o = true <-> o = Some c.
Proof. split; [apply on_true|intros ->; apply on_refl]. Qed.
Lemma on_diff c o o' : diffc o o' -> on c o = true -> on c o' = false.
Proof. intros D H. apply on_some in H. destruct (on c o') eqn:E; auto. apply on_some in E. elim (D c); auto. Qed.

Lemma comm x y s : ffr x -> ffr y -> Ind x y -> SameRun none (ex [x; y] s) (ex [y; x] s).
Proof.
  intros Fx Fy (I1 & I2 & I3). unfold ex. cbn [map exec_is].
  assert (G : forall x y, ffr x -> ffr y -> Ind x y -> forall s s', exec_i (f_i x) s = Some s' ->
     match i_in (f_i y) with Some c => p_in s' c | None => [] end = match i_in (f_i y) with Some c => p_in s c | None => [] end).
  { clear. intros x y _ _ (_ & D & _) s s'. unfold exec_i. destruct (Z.of_nat _ <? _); [discriminate|]. intros E. injection E as <-. simpl.
    destruct (i_in (f_i y)) as [c|] eqn:Ey; auto. destruct (on c (i_in (f_i x))) eqn:Ex; auto. apply on_some in Ex. elim (D c); auto. }
  assert (Ind y x) as Iyx.
  { destruct I1 as (A & B & C). repeat split; auto.
    - intros a Ha Hb. apply (B a); auto.
    - intros c H1 H2. apply (I2 c); auto.
    - intros c H1 H2. apply (I3 c); auto. }
  assert (Gx := G x y Fx Fy (conj I1 (conj I2 I3)) s). assert (Gy := G y x Fy Fx Iyx s). clear G.
  destruct Fx as (X0 & X1 & XD & XW & XS), Fy as (Y0 & Y1 & YD & YW & YS).
  unfold exec_i at 1 3. unfold exec_i in Gx, Gy.
  set (ax := match i_in (f_i x) with Some c => p_in s c | None => [] end) in *.
  set (ay := match i_in (f_i y) with Some c => p_in s c | None => [] end) in *.
  destruct (Z.of_nat (length ax) <? i_take (f_i x)) eqn:Lx; destruct (Z.of_nat (length ay) <? i_take (f_i y)) eqn:Ly.
  - simpl. auto.
  - unfold exec_i. rewrite (Gy _ eq_refl), Lx. simpl. auto.
  - unfold exec_i. rewrite (Gx _ eq_refl), Ly. simpl. auto.
  - unfold exec_i. rewrite (Gy _ eq_refl), (Gx _ eq_refl), Lx, Ly. clear Gx Gy.
    set (bx := firstn _ ax). set (by_ := firstn _ ay).
    assert (Kx : Z.of_nat (length bx) = i_take (f_i x)) by (unfold bx, bytes; rewrite firstn_length; lia).
    assert (Ky : Z.of_nat (length by_) = i_take (f_i y)) by (unfold by_, bytes; rewrite firstn_length; lia). cbn [p_mem p_in p_out].
    set (m := p_mem s). destruct I1 as (A & B & C).
    assert (Ey : forall a, f_rd y a -> i_write (f_i x) m bx a = m a) by (intros a Ha; apply XW; auto; intros Hw; apply (A a Hw Ha)).
    assert (Ex : forall a, f_rd x a -> i_write (f_i y) m by_ a = m a) by (intros a Ha; apply YW; auto; intros Hw; apply (C a Hw Ha)).
    destruct (YS (i_write (f_i x) m bx) m by_ Ky Ey) as [Sy Wy]. destruct (XS (i_write (f_i y) m by_) m bx Kx Ex) as [Sx Wx].
    repeat split; cbn [p_mem p_in p_out].
    + intros a _. destruct (XD a) as [dx|dx], (YD a) as [dy|dy].
      * elim (B a dx dy).
      * rewrite (YW _ _ a Ky dy), (Wx a dx). auto.
      * rewrite (Wy a dy), (XW _ _ a Kx dx). auto.
      * rewrite (YW _ _ a Ky dy), (XW _ _ a Kx dx), (XW _ _ a Kx dx), (YW _ _ a Ky dy). auto.
    + intros c. destruct (on c (i_in (f_i x))) eqn:E1, (on c (i_in (f_i y))) eqn:E2; auto.
      rewrite (on_diff c _ _ I2 E1) in E2. discriminate.
    + intros c. rewrite Sx, Sy. destruct (on c (i_out (f_i x))) eqn:E1, (on c (i_out (f_i y))) eqn:E2; auto.
      rewrite (on_diff c _ _ I3 E1) in E2. discriminate.
Qed.

(* same behaviour of two lists *)
Definition eqv (l l' : list fi) : Prop := forall s, SameRun none (ex l s) (ex l' s).
Lemma eqv_refl l : eqv l l.
Proof. intros s. apply same_refl. Qed.
Lemma eqv_sym l l' : eqv l l' -> eqv l' l.
Proof. intros H s. apply same_sym, H. Qed.
Lemma eqv_trans a b c : eqv a b -> eqv b c -> eqv a c.
Proof. intros H K s. eapply same_trans; [apply H|apply K]. Qed.
Lemma eqv_front l1 l1' l2 : Forall ffr l2 -> eqv l1 l1' -> eqv (l1 ++ l2) (l1' ++ l2).
Proof. intros F H s. apply ex_front; auto using away_none. Qed.
Lemma eqv_back l1 l2 l2' : eqv l2 l2' -> eqv (l1 ++ l2) (l1 ++ l2').
Proof. intros H s. rewrite !ex_app. destruct (ex l1 s); [apply H|exact I]. Qed.
Lemma eqv_cons x l l' : eqv l l' -> eqv (x :: l) (x :: l').
Proof. apply (eqv_back [x]). Qed.

Lemma eqv_swap x y l : ffr x -> ffr y -> Forall ffr l -> Ind x y -> eqv (x :: y :: l) (y :: x :: l).
Proof. intros Fx Fy F I. apply (eqv_front [x; y] [y; x] l F). intros s. apply comm; auto. Qed.

Lemma eqv_move x l1 l2 : ffr x -> Forall ffr l1 -> Forall ffr l2 -> (forall y, In y l1 -> Ind y x) ->
  eqv (l1 ++ x :: l2) (x :: l1 ++ l2).
Proof.
  intros Fx F1 F2. induction l1 as [|y l1 IH]; intros H; simpl; [apply eqv_refl|]. inversion F1; subst.
  apply eqv_trans with (y :: x :: l1 ++ l2).
  - apply eqv_cons. apply IH; auto. intros; apply H; right; auto.
  - apply eqv_swap; auto; [apply Forall_app; auto|apply H; left; auto].
Qed.

Lemma eqv_block B A L : Forall ffr A -> Forall ffr B -> Forall ffr L -> (forall a b, In a A -> In b B -> Ind a b) ->
  eqv (A ++ B ++ L) (B ++ A ++ L).
Proof.
  intros FA. induction B as [|x B IH]; intros FB FL H; simpl; [apply eqv_refl|]. inversion FB; subst.
  apply eqv_trans with (x :: A ++ (B ++ L)).
  - apply eqv_move; auto; [apply Forall_app; auto|intros; apply H; auto; left; auto].
  - apply eqv_cons. apply IH; auto; intros; apply H; auto; right; auto.
Qed.

(* partition of a list *)
Lemma eqv_partition {A} (f : A -> fi) (Q : A -> bool) l L :
  Forall (fun a => ffr (f a)) l -> Forall ffr L ->
  (forall a b, In a l -> In b l -> Q a = false -> Q b = true -> Ind (f a) (f b)) ->
  eqv (map f l ++ L) (map f (filter Q l) ++ map f (filter (fun a => negb (Q a)) l) ++ L).
Proof.
  induction l as [|x l IH]; intros F FL H; simpl; [apply eqv_refl|]. inversion F; subst.
  assert (K : eqv (map f l ++ L) (map f (filter Q l) ++ map f (filter (fun a => negb (Q a)) l) ++ L)).
  { apply IH; auto. intros; apply H; auto; right; auto. }
  destruct (Q x) eqn:E; simpl.
  - apply eqv_cons. auto.
  - apply eqv_trans with (f x :: map f (filter Q l) ++ map f (filter (fun a => negb (Q a)) l) ++ L); [apply eqv_cons; auto|].
    assert (Ff : forall P, Forall ffr (map f (filter P l))).
    { intros P. apply Forall_forall. intros y Hy. apply in_map_iff in Hy as (z & <- & Hz). apply filter_In in Hz as [Hz _]. rewrite Forall_forall in H3. auto. }
    apply (eqv_block (map f (filter Q l)) [f x]); auto. apply Forall_app; auto.
    intros a b [<-|[]] Hb. apply in_map_iff in Hb as (z & <- & Hz). apply filter_In in Hz as [Hz1 Hz2]. apply H; simpl; auto.
Qed.

(* three parts per element *)
Lemma eqv_three {A} (e0 e1 e2 : A -> list fi) l L :
  Forall ffr L -> (forall a, In a l -> Forall ffr (e0 a) /\ Forall ffr (e1 a) /\ Forall ffr (e2 a)) ->
  ForallOrdPairs (fun a b =>
    (forall x y, In x (e1 a ++ e2 a) -> In y (e0 b) -> Ind y x) /\ (forall x y, In x (e2 a) -> In y (e1 b) -> Ind y x)) l ->
  eqv (flat_map e0 l ++ flat_map e1 l ++ flat_map e2 l ++ L) (flat_map (fun a => e0 a ++ e1 a ++ e2 a) l ++ L).
Proof.
  intros FL. induction l as [|a l IH]; intros F O; simpl; [apply eqv_refl|]. inversion O as [|? ? Oa Ol]; subst.
  assert (Fl : forall (e : A -> list fi), (e = e0 \/ e = e1 \/ e = e2) -> Forall ffr (flat_map e l)).
  { intros e He. apply Forall_forall. intros x Hx. apply in_flat_map in Hx as (b & Hb & Hx). destruct (F b (or_intror Hb)) as (A1 & A2 & A3). rewrite Forall_forall in A1, A2, A3.
    destruct He as [->|[->| ->]]; auto. }
  destruct (F a (or_introl eq_refl)) as (A0 & A1 & A2).
  specialize (IH (fun b Hb => F b (or_intror Hb)) Ol). rewrite Forall_forall in Oa.
  assert (D0 : forall y x, In y (flat_map e0 l) -> In x (e1 a ++ e2 a) -> Ind y x).
  { intros y x Hy Hx. apply in_flat_map in Hy as (b & Hb & Hy). destruct (Oa b Hb) as [K _]. auto. }
  assert (D1 : forall y x, In y (flat_map e1 l) -> In x (e2 a) -> Ind y x).
  { intros y x Hy Hx. apply in_flat_map in Hy as (b & Hb & Hy). destruct (Oa b Hb) as [_ K]. auto. }
  rewrite <- !app_assoc. apply eqv_back.
  apply eqv_trans with (e1 a ++ flat_map e0 l ++ flat_map e1 l ++ e2 a ++ flat_map e2 l ++ L).
  - apply eqv_block; auto.
    + repeat (apply Forall_app; split; auto).
    + intros x y Hx Hy. apply D0; rewrite ?in_app_iff; tauto.
  - apply eqv_back. apply eqv_trans with (e2 a ++ flat_map e0 l ++ flat_map e1 l ++ flat_map e2 l ++ L).
    + rewrite (app_assoc (flat_map e0 l) (flat_map e1 l) (flat_map e2 l ++ L)), (app_assoc (flat_map e0 l) (flat_map e1 l) (e2 a ++ _)).
      apply eqv_block; auto.
      * apply Forall_app; auto.
      * apply Forall_app; auto.
      * intros x y Hx Hy. apply in_app_or in Hx as [Hx|Hx]; [apply D0|apply D1]; rewrite ?in_app_iff; auto.
    + apply eqv_back. exact IH.
Qed.

(* a larger footprint is fine, too *)
Lemma Frame_mono i (rd wr rd' wr' : area) : Frame i rd wr ->
  (forall x, rd x -> rd' x) -> (forall x, wr x -> wr' x) -> (forall x, wr' x -> rd' x \/ wr x) -> (forall x, wr' x \/ ~ wr' x) ->
  Frame i rd' wr'.
Proof.
  intros (A & B & D & W1 & W2) H1 H2 H3 H4. split; [|split; [|split; [|split]]]; auto.
  intros m m' bs Hb Hm. destruct (W2 m m' bs Hb) as [E1 E2]; [intros; apply Hm; auto|]. split; auto.
  intros x Hx. destruct (D x) as [d|d]; auto. rewrite !W1; auto. apply Hm. destruct (H3 x Hx); tauto.
Qed.
