(* Every schedule of a TCP2 network ends like the sequential execution of transfers in some order. *)
From Coq Require Import ZArith List Bool Lia ZifyBool ZifyNat.
From Verif Require Import Base ListFacts Model_Space Model_RangeList Model_Mem Model_Layout Model_Partitioner Model_Transition Model_Data
  Model_Action Model_ActionTrans Model_Switch Model_KVS Model_SpaceStore Model_Tcp2 Model_Tcp2Exec.
Import ListNotations.
Open Scope Z_scope.

Lemma upd_same {A} (f : Z -> A) p v : upd f p v p = v.
Proof. unfold upd. rewrite Z.eqb_refl. auto. Qed.
Lemma upd_other {A} (f : Z -> A) p v q : q <> p -> upd f p v q = f q.
Proof. unfold upd. destruct (q =? p) eqn:E; auto. lia. Qed.
Lemma upd2_same {A} (f : Z -> Z -> A) a b v : upd2 f a b v a b = v.
Proof. unfold upd2. rewrite !Z.eqb_refl. auto. Qed.
Lemma upd2_other {A} (f : Z -> Z -> A) a b v p q : p <> a \/ q <> b -> upd2 f a b v p q = f p q.
Proof. unfold upd2. destruct ((p =? a) && (q =? b)) eqn:E; auto. lia. Qed.

Section Gen.
Variable rd : redop -> list Z -> list Z -> outcome (list Z).
Variable gen : bool.
Variable bin : Z -> Z -> bool.
Variable sp : space.
Notation step := (tstep rd gen bin sp).
Notation run := (trun rd gen bin sp).

(* a transfer, or a local copy; and what was done already *)
Inductive unit_ := UCopy (p : Z) (b : box) (f t : lmap) | UXfer (a : Z) (ma : lmap) (b : box) (q : Z) (mq : lmap) (ro : redop).
Inductive stat := Fresh | Asked (r : rpeer) | Sent (r : rpeer) (d : list (list Z)).
Definition su := (unit_ * stat)%type.

Definition proj1u (p : Z) (u : unit_) : list top :=
  match u with
  | UCopy q b f t => if p =? q then [TCopy b f t] else []
  | UXfer a ma b q mq ro => (if p =? a then [TSend ma b q] else []) ++ (if p =? q then [TRecv b a mq ro] else [])
  end.
Definition proju (p : Z) (x : su) : list top :=
  match x with
  | (UXfer a ma b q mq ro, Sent _ _) => if p =? q then [TRecv b a mq ro] else []
  | (u, _) => proj1u p u
  end.

(* the elements of the message are handled *)
Fixpoint gets (r : rpeer) (m : mem) (d : list (list Z)) : outcome (rpeer * mem) :=
  match d with [] => Ok (r, m) | e :: d' => do y <- tcp_get rd r m e; gets (fst y) (snd y) d' end.

Definition starts (b : box) (mq : lmap) (ro : redop) (r : rpeer) : Prop := recv_start sp b mq ro (no_recv sp b) = Ok r.
(* effect on the memories of all processes *)
Definition ueff (x : su) (M M' : Z -> mem) : Prop :=
  match x with
  | (UCopy p b f t, _) => exists m', tcp_copy gen sp b f t (M p) = Ok m' /\ M' p = m' /\ forall q, q <> p -> M' q = M q
  | (UXfer a ma b q mq ro, st) =>
    exists r d r' m', (match st with
      | Fresh => starts b mq ro r /\ tcp_send bin sp a q b ma (M a) (pr_count r) (pr_es r) = Ok d
      | Asked r0 => r = r0 /\ tcp_send bin sp a q b ma (M a) (pr_count r) (pr_es r) = Ok d
      | Sent r0 d0 => r = r0 /\ d = d0 end) /\
      gets r (M q) d = Ok (r', m') /\ recv_done r' = true /\ zlen d = pr_count r - pr_off r /\ M' q = m' /\ forall p, p <> q -> M' p = M p
  end.
Fixpoint effs (R : list su) (M E : Z -> mem) : Prop :=
  match R with
  | [] => forall p, M p = E p
  | x :: R' => exists M1, ueff x M M1 /\ effs R' M1 E
  end.

Variable N : Z.
Definition uok (x : su) : Prop :=
  match x with
  | (UCopy p _ _ _, st) => 0 <= p < N /\ st = Fresh
  | (UXfer a _ _ q _ _, _) => 0 <= a < N /\ 0 <= q < N /\ a <> q
  end.

(* effects do not touch processes without operations *)
Lemma ueff_swap x p M1 M2 M' m : proju p x = [] -> ueff x M1 M' -> (forall q, q <> p -> M2 q = M1 q) -> M2 p = m ->
  exists M'', ueff x M2 M'' /\ M'' p = m /\ forall q, q <> p -> M'' q = M' q.
Proof.
  intros Hp HE H1 H2. destruct x as [[q b f t|a ma b q mq ro] st].
  - cbn in Hp. assert (Hq : p <> q) by (intros ->; destruct st; rewrite Z.eqb_refl in Hp; discriminate).
    destruct HE as (m' & E1 & E2 & E3). exists (upd M' p m). split; [|split; [apply upd_same|intros; apply upd_other; auto]].
    exists m'. rewrite H1 by auto. split; auto. rewrite upd_other by auto. split; auto. intros q' Hq'.
    destruct (Z.eq_dec q' p) as [->|Hn]; [rewrite upd_same; auto|rewrite upd_other by auto; rewrite E3, H1; auto].
  - assert (Hq : p <> q).
    { intros ->. destruct st; cbn in Hp; rewrite Z.eqb_refl in Hp; try discriminate; destruct (q =? a); discriminate. }
    assert (Ha : (exists r d, st = Sent r d) \/ p <> a).
    { destruct st; [right|right|left; eauto]; intros ->; cbn in Hp; rewrite Z.eqb_refl in Hp; discriminate. }
    destruct HE as (r & d & r' & m' & E0 & E1 & E2 & E3 & E4 & E5). exists (upd M' p m). split; [|split; [apply upd_same|intros; apply upd_other; auto]].
    exists r, d, r', m'. rewrite (H1 q) by auto. split.
    + destruct st; auto; destruct Ha as [(r9 & d9 & Ha)|Ha]; try discriminate; rewrite (H1 a) by auto; auto.
    + split; auto. split; auto. split; auto. rewrite upd_other by auto. split; auto. intros q' Hq'.
      destruct (Z.eq_dec q' p) as [->|Hn]; [rewrite upd_same; auto|rewrite upd_other by auto; rewrite E5, H1; auto].
Qed.
Lemma effs_ext R : forall M1 M2 E, effs R M1 E -> (forall p, M2 p = M1 p) -> effs R M2 E.
Proof.
  destruct R as [|x R]; intros M1 M2 E H HM; [intros p; rewrite HM; apply H|].
  destruct H as (M' & H1 & H2). exists M'. split; auto. destruct x as [[q b f t|a ma b q mq ro] st].
  - destruct H1 as (m' & A & B & C). exists m'. rewrite HM. split; auto. split; auto. intros; rewrite HM; auto.
  - destruct H1 as (r & d & r' & m' & A & B & C & D & E1 & F). exists r, d, r', m'. rewrite (HM q). split.
    + destruct st; rewrite ?HM; auto.
    + split; auto. split; auto. split; auto. split; auto. intros; rewrite HM; auto.
Qed.
(* the first operation of process [p] can be done at once: [P] is what happens to the unit *)
Lemma effs_front R1 : forall p x R2 M E, Forall (fun y => proju p y = []) R1 -> effs (R1 ++ x :: R2) M E ->
  exists M1 M1', effs R1 M M1 /\ ueff x M1 M1' /\ effs R2 M1' E /\ M1 p = M p.
Proof.
  induction R1 as [|y R1 IH]; intros p x R2 M E HF HE.
  - destruct HE as (M1 & A & B). exists M, M1. split; [intros q; reflexivity|]. split; [exact A|]. split; [exact B|reflexivity].
  - inversion HF as [|? ? F1 F2]; subst. destruct HE as (M1 & A & B). destruct (IH p x R2 M1 E F2 B) as (M2 & M3 & B1 & B2 & B3 & B4).
    exists M2, M3. split; [exists M1; auto|]. split; auto. split; auto. rewrite B4.
    destruct (ueff_swap y p M M M1 (M p) F1 A (fun _ _ => eq_refl) eq_refl) as (M'' & C1 & C2 & C3).
    destruct y as [[q b f t|a ma b q mq ro] st].
    + destruct A as (m' & A1 & A2 & A3). apply A3. intros ->. cbn in F1. destruct st; rewrite Z.eqb_refl in F1; discriminate.
    + destruct A as (r & d & r' & m' & A0 & A1 & A2 & A3 & A4 & A5). apply A5. intros ->. destruct st; cbn in F1; rewrite Z.eqb_refl in F1; try discriminate; destruct (q =? a); discriminate.
Qed.
Lemma effs_swap R1 : forall p M1 M2 E m, Forall (fun y => proju p y = []) R1 -> effs R1 M1 E -> (forall q, q <> p -> M2 q = M1 q) -> M2 p = m ->
  exists E', effs R1 M2 E' /\ E' p = m /\ forall q, q <> p -> E' q = E q.
Proof.
  induction R1 as [|y R1 IH]; intros p M1 M2 E m HF HE H1 H2.
  - exists M2. split; [intros q; reflexivity|]. split; auto. intros q Hq. rewrite H1 by auto. apply HE.
  - inversion HF as [|? ? F1 F2]; subst. destruct HE as (M' & A & B).
    destruct (ueff_swap y p M1 M2 M' (M2 p) F1 A H1 eq_refl) as (M'' & C1 & C2 & C3).
    destruct (IH p M' M'' E (M2 p) F2 B C3 C2) as (E' & D1 & D2 & D3). exists E'. split; [exists M''; auto|auto].
Qed.
Lemma effs_app R1 : forall R2 M M1 E, effs R1 M M1 -> effs R2 M1 E -> effs (R1 ++ R2) M E.
Proof.
  induction R1 as [|y R1 IH]; intros R2 M M1 E H1 H2; [eapply effs_ext; eauto|]. destruct H1 as (M' & A & B). exists M'. split; eauto.
Qed.

Definition fresh_to (b : Z) (x : su) : Prop := match x with (UXfer _ _ _ q _ _, st) => q = b -> st = Fresh | _ => True end.
Definition idle_pair (s : tnet) (a b : Z) : Prop := fst (tn_perm s a b) = 0 /\ tn_wire s a b = [].

(* what is known about process b as a receiver *)
Definition Rcv (s : tnet) (R : list su) (b : Z) : Prop :=
  match tq_wait (tn_proc s b) with
  | None => (forall a, idle_pair s a b) /\ Forall (fresh_to b) R
  | Some r => exists R1 a ma bx mq ro st R2, R = R1 ++ (UXfer a ma bx b mq ro, st) :: R2 /\ Forall (fun y => proju b y = []) R1 /\
      Forall (fresh_to b) (R1 ++ R2) /\ (forall a', a' <> a -> idle_pair s a' b) /\
      match st with
      | Fresh => False
      | Asked r' => r' = r /\ starts bx mq ro r /\ tn_perm s a b = (pr_count r, pr_es r) /\ 0 < pr_count r /\ pr_off r = 0 /\ tn_wire s a b = []
      | Sent r' d => r' = r /\ fst (tn_perm s a b) = 0 /\ tn_wire s a b = d
      end
  end.
Record NInv (s : tnet) (R : list su) (E : Z -> mem) : Prop := {
  ni_ok : Forall uok R;
  ni_code : forall p, 0 <= p < N -> tq_code (tn_proc s p) = flat_map (proju p) R;
  ni_rcv : forall p, 0 <= p < N -> Rcv s R p;
  ni_eff : effs R (fun p => tq_mem (tn_proc s p)) E }.

Definition weight1 (x : su) : nat := match snd x with Fresh => 4 + match fst x with UXfer _ _ b _ _ _ => match box_size (sp_dims sp) b with Ok n => Z.to_nat (as_int n) | _ => 0 end | _ => 0 end
  | Asked r => 3 + Z.to_nat (pr_count r) | Sent _ d => 1 + length d end.
Definition weight (R : list su) : nat := fold_right (fun x n => weight1 x + n)%nat O R.
Lemma weight_app R1 R2 : weight (R1 ++ R2) = (weight R1 + weight R2)%nat.
Proof. induction R1; simpl; auto. rewrite IHR1. lia. Qed.

Lemma first_op R p : flat_map (proju p) R <> [] -> exists R1 x R2, R = R1 ++ x :: R2 /\ Forall (fun y => proju p y = []) R1 /\ proju p x <> [].
Proof.
  induction R as [|x R IH]; intros H; [destruct (H eq_refl)|]. destruct (proju p x) eqn:E.
  - cbn in H. rewrite E in H. destruct (IH H) as (R1 & y & R2 & -> & F & Hy). exists (x :: R1), y, R2. split; auto.
  - exists [], x, R. split; auto. split; auto. congruence.
Qed.
Lemma flat_none R p : Forall (fun y => proju p y = []) R -> flat_map (proju p) R = [].
Proof. induction 1 as [|y R H F IH]; auto. cbn. rewrite H, IH. auto. Qed.

Lemma split_uniq {A} (P : A -> Prop) R1 : forall R1' x x' R2 R2', R1 ++ x :: R2 = R1' ++ x' :: R2' -> Forall P R1 -> Forall P R1' -> ~ P x -> ~ P x' -> R1 = R1' /\ x = x' /\ R2 = R2'.
Proof.
  induction R1 as [|y R1 IH]; intros [|y' R1'] x x' R2 R2' HE H1 H2 Hx Hx'; cbn in HE.
  - injection HE as -> ->. auto.
  - injection HE as -> ->. inversion H2; subst. tauto.
  - injection HE as -> <-. inversion H1; subst. tauto.
  - injection HE as -> HE. inversion H1; inversion H2; subst. destruct (IH _ _ _ _ _ HE) as (-> & -> & ->); auto.
Qed.

Lemma starts_count b mq ro r : starts b mq ro r -> 0 < pr_count r /\ pr_off r = 0 /\ recv_done r = false /\ exists n, box_size (sp_dims sp) b = Ok n /\ pr_count r = as_int n.
Proof.
  unfold starts, recv_start. destruct (negb (lm_start mq =? 0)); [|discriminate]. cbn [cassert no_recv pr_count]. change (0 =? 0) with true. cbn [cassert].
  destruct (box_size (sp_dims sp) b) as [n| | | |]; try discriminate. cbn [obind]. destruct (as_int n >? 0) eqn:E; [|discriminate]. intros H. injection H as <-.
  cbn [pr_count pr_off]. unfold recv_done. cbn [pr_count pr_off]. split; [lia|]. split; auto. split; [lia|]. eauto.
Qed.

Definition ops_of (x : su) (p : Z) : Prop := proju p x <> [].
Lemma rcv_proj a ma b q mq ro st : proju q (UXfer a ma b q mq ro, st) <> [].
Proof. destruct st; cbn; rewrite Z.eqb_refl; try discriminate; destruct (q =? a); discriminate. Qed.

(* units of others are not touched *)
Lemma rcv_frame s s' R1 x x' R2 b : Rcv s (R1 ++ x :: R2) b ->
  tq_wait (tn_proc s' b) = tq_wait (tn_proc s b) ->
  (forall a, tn_perm s' a b = tn_perm s a b /\ tn_wire s' a b = tn_wire s a b) ->
  match x with (UXfer _ _ _ q _ _, _) => q <> b | _ => True end ->
  match x' with Some (UXfer _ _ _ q _ _, _) => q <> b | _ => True end ->
  match x' with Some y => forall z, proju b x = z -> proju b y = z \/ proju b y = [] | None => True end ->
  Rcv s' (R1 ++ match x' with Some y => y :: R2 | None => R2 end) b.
Proof.
  intros H Hw Hp Hx Hx' Hpr. unfold Rcv in *. rewrite Hw. unfold idle_pair in *.
  assert (FX : fresh_to b x) by (destruct x as [[]]; cbn; tauto).
  assert (FX' : match x' with Some y => fresh_to b y | None => True end) by (destruct x' as [[[]]|]; cbn; tauto).
  destruct (tq_wait (tn_proc s b)) as [r|].
  - destruct H as (Q1 & a & ma & bx & mq & ro & st & Q2 & HR & HF & HF2 & HI & HS).
    assert (HI' : forall a', a' <> a -> fst (tn_perm s' a' b) = 0 /\ tn_wire s' a' b = []).
    { intros a' Ha. destruct (Hp a') as [-> ->]. auto. }
    assert (HS' : match st with Fresh => False | Asked r' => r' = r /\ starts bx mq ro r /\ tn_perm s' a b = (pr_count r, pr_es r) /\ 0 < pr_count r /\ pr_off r = 0 /\ tn_wire s' a b = []
        | Sent r' d => r' = r /\ fst (tn_perm s' a b) = 0 /\ tn_wire s' a b = d end) by (destruct (Hp a) as [-> ->]; exact HS).
    (* where is the unit *)
    assert (HW : (exists Q, R1 = Q1 ++ (UXfer a ma bx b mq ro, st) :: Q /\ Q2 = Q ++ x :: R2) \/ (exists Q, Q1 = R1 ++ x :: Q /\ R2 = Q ++ (UXfer a ma bx b mq ro, st) :: Q2)).
    { clear - HR Hx. revert Q1 HR. induction R1 as [|y R1 IH]; intros [|y' Q1] HR; cbn in HR.
      - injection HR as -> _. destruct Hx. auto.
      - injection HR as -> ->. right. exists Q1. auto.
      - injection HR as -> <-. left. exists R1. auto.
      - injection HR as -> HR. destruct (IH _ HR) as [(Q & -> & ->)|(Q & -> & ->)]; [left|right]; exists Q; auto. }
    destruct HW as [(Q & -> & ->)|(Q & -> & ->)].
    + exists Q1, a, ma, bx, mq, ro, st, (Q ++ match x' with Some y => y :: R2 | None => R2 end). rewrite <- app_assoc. cbn [app]. split; auto. split; auto. split; [|auto].
      rewrite !Forall_app in *. destruct HF2 as (G1 & G2 & G3). split; auto. split; auto. inversion G3; subst. destruct x'; auto.
    + exists (R1 ++ match x' with Some y => y :: Q | None => Q end), a, ma, bx, mq, ro, st, Q2.
      split; [destruct x'; rewrite <- app_assoc; reflexivity|]. rewrite !Forall_app in *. destruct HF as (G1 & G2). inversion G2 as [|? ? G3 G4]; subst.
      destruct HF2 as ((G5 & G6) & G7). inversion G6; subst. split; [|split; [|auto]].
      * split; auto. destruct x' as [y|]; auto. constructor; auto. destruct (Hpr _ eq_refl) as [E9|E9]; rewrite E9; auto.
      * split; auto. split; auto. destruct x'; auto.
  - destruct H as [H1 H2]. split.
    + intros a. destruct (Hp a) as [-> ->]. auto.
    + rewrite Forall_app in *. destruct H2 as [H2 H3]. inversion H3; subst. split; auto. destruct x'; auto.
Qed.

Lemma split_tri {A} R1 : forall (x : A) R2 R1' y R2', R1 ++ x :: R2 = R1' ++ y :: R2' ->
  (exists Q, R1 = R1' ++ y :: Q /\ R2' = Q ++ x :: R2) \/ (R1 = R1' /\ x = y /\ R2 = R2') \/ (exists Q, R1' = R1 ++ x :: Q /\ R2 = Q ++ y :: R2').
Proof.
  induction R1 as [|z R1 IH]; intros x R2 [|z' R1'] y R2' H; cbn in H.
  - injection H as -> ->. auto.
  - injection H as -> ->. right. right. exists R1'. auto.
  - injection H as -> <-. left. exists R1. auto.
  - injection H as -> H. destruct (IH _ _ _ _ _ H) as [(Q & -> & ->)|[(-> & -> & ->)|(Q & -> & ->)]]; [left; exists Q|right; left|right; right; exists Q]; auto.
Qed.

Lemma effs_do R1 p x R2 M E : Forall (fun y => proju p y = []) R1 -> effs (R1 ++ x :: R2) M E ->
  exists M1 M1', ueff x M1 M1' /\ M1 p = M p /\
    (forall x' m', (forall K, K p = m' -> (forall q, q <> p -> K q = M1 q) -> ueff x' K M1') -> forall M2, M2 p = m' -> (forall q, q <> p -> M2 q = M q) -> effs (R1 ++ x' :: R2) M2 E) /\
    (forall m', m' = M1' p -> (forall q, q <> p -> M1' q = M1 q) -> forall M2, M2 p = m' -> (forall q, q <> p -> M2 q = M q) -> effs (R1 ++ R2) M2 E).
Proof.
  intros HF HE. destruct (effs_front R1 p x R2 M E HF HE) as (M1 & M1' & A & B & C & D). exists M1, M1'. split; auto. split; auto. split.
  - intros x' m' HK M2 H1 H2. destruct (effs_swap R1 p M M2 M1 m' HF A H2 H1) as (E' & F1 & F2 & F3).
    eapply effs_app; [exact F1|]. exists M1'. split; auto.
  - intros m' Hm HK M2 H1 H2. destruct (effs_swap R1 p M M2 M1 m' HF A H2 H1) as (E' & F1 & F2 & F3).
    eapply effs_app; [exact F1|]. eapply effs_ext; [exact C|]. intros q. destruct (Z.eq_dec q p) as [->|Hq]; [congruence|]. rewrite F3, HK; auto.
Qed.

Lemma get_off r m e r' m' : tcp_get rd r m e = Ok (r', m') -> pr_count r' = pr_count r /\ pr_off r' = pr_off r + 1.
Proof.
  unfold tcp_get, put_elem. destruct (pr_map r); [|discriminate]. destruct (offset_lex _ _ _); try discriminate. cbn [obind].
  destruct (match pr_ro r with RO_None => Ok e | _ => _ end); try discriminate. cbn [obind]. destruct (next_lex _ _ _) as [more i]. cbn [obind fst snd].
  destruct (Bool.eqb _ _); [|discriminate]. cbn [cassert]. intros H. injection H as <- <-. auto.
Qed.

Lemma weight_x R1 x x' R2 : (weight1 x' < weight1 x)%nat -> (weight (R1 ++ x' :: R2) < weight (R1 ++ x :: R2))%nat.
Proof. intros H. rewrite !weight_app. cbn [weight fold_right]. fold (weight R2). lia. Qed.
Lemma weight_rm R1 x R2 : (0 < weight1 x)%nat -> (weight (R1 ++ R2) < weight (R1 ++ x :: R2))%nat.
Proof. intros H. rewrite !weight_app. cbn [weight fold_right]. fold (weight R2). lia. Qed.
Lemma weight1_pos x : (0 < weight1 x)%nat.
Proof. destruct x as [u []]; unfold weight1; cbn [snd]; lia. Qed.

Lemma code_head p R1 x R2 : Forall (fun y => proju p y = []) R1 -> flat_map (proju p) (R1 ++ x :: R2) = proju p x ++ flat_map (proju p) R2.
Proof. intros H. rewrite flat_map_app, (flat_none R1 p H). reflexivity. Qed.

Definition active (s : tnet) (R : list su) (p : Z) : Prop :=
  exists R1 x R2, R = R1 ++ x :: R2 /\ Forall (fun y => proju p y = []) R1 /\
    match x with
    | (UCopy q _ _ _, _) => q = p
    | (UXfer a _ _ q _ _, Fresh) => q = p
    | (UXfer a _ _ q _ _, Asked _) => a = p
    | (UXfer a _ _ q _ _, Sent _ _) => q = p
    end.

Lemma step_inv s R E p : NInv s R E -> 0 <= p < N ->
  (step s p = Ok None /\ ~ active s R p) \/ exists s' R', step s p = Ok (Some s') /\ NInv s' R' E /\ (weight R' < weight R)%nat.
Proof.
  intros [I1 I2 I3 I4] Hp. destruct (flat_map (proju p) R) as [|o0 c0] eqn:EC.
  { left. unfold tstep. rewrite I2, EC by auto. split; auto. intros (R1 & x & R2 & -> & HF & Hx). rewrite code_head in EC by auto.
    apply app_eq_nil in EC. destruct EC as [EC _]. destruct x as [[q b f t|a ma b q mq ro] st].
    - subst q. destruct st; cbn in EC; rewrite Z.eqb_refl in EC; discriminate.
    - destruct st; subst; cbn in EC; rewrite Z.eqb_refl in EC; try discriminate. destruct (p =? a); discriminate. }
  destruct (first_op R p) as (R1 & x & R2 & -> & HF & Hx); [congruence|]. rewrite code_head in EC by auto.
  assert (Hcode : tq_code (tn_proc s p) = proju p x ++ flat_map (proju p) R2) by (rewrite I2, code_head; auto).
  rewrite Forall_app in I1. destruct I1 as [U1 U2]. inversion U2 as [|? ? U3 U4]; subst. clear U2.
  assert (UQ : forall x' R1' y R2', R1 ++ x :: R2 = R1' ++ y :: R2' -> Forall (fun y => proju p y = []) R1' -> x' = y -> proju p y <> [] -> R1 = R1' /\ x = y /\ R2 = R2').
  { intros x' R1' y R2' HE HF' _ Hy. apply (split_uniq (fun y => proju p y = []) R1 R1' x y R2 R2' HE HF HF' Hx Hy). }
  destruct (effs_do R1 p x R2 _ E HF I4) as (M1 & M1' & HU & HM & HX & HRm).
  assert (ACT : forall Q, ~ Q x -> (forall z, active s (R1 ++ x :: R2) p -> z = x -> match x with (UCopy q _ _ _, _) => q = p | (UXfer a _ _ q _ _, Fresh) => q = p | (UXfer a _ _ q _ _, Asked _) => a = p | (UXfer a _ _ q _ _, Sent _ _) => q = p end)).
  { intros _ _ z (R1' & y & R2' & HE & HF' & Hy) _. assert (Hyp : proju p y <> []).
    { destruct y as [[q b f t|a ma b q mq ro] st]; [subst q; destruct st; cbn; rewrite Z.eqb_refl; discriminate|].
      destruct st; subst; cbn; rewrite Z.eqb_refl; try discriminate. destruct (p =? a); discriminate. }
    destruct (UQ y R1' y R2' HE HF' eq_refl Hyp) as (_ & <- & _). exact Hy. }
  specialize (ACT (fun _ => False) (fun H => H) x).
  destruct x as [[q b f t|a ma b q mq ro] st].
  - (* copy *)
    assert (q = p) by (destruct (Z.eq_dec p q); auto; cbn in Hx; destruct st; destruct (p =? q) eqn:Eq; try lia; destruct (Hx eq_refl)). subst q.
    destruct HU as (m' & E1 & E2 & E3). rewrite HM in E1.
    assert (PR : proju p (UCopy p b f t, st) = [TCopy b f t]) by (destruct st; cbn; rewrite Z.eqb_refl; auto).
    assert (PO : forall c, c <> p -> proju c (UCopy p b f t, st) = []) by (intros c Hc; destruct st; cbn; destruct (c =? p) eqn:Ec; auto; lia).
    right. eexists. exists (R1 ++ R2). split; [unfold tstep; rewrite Hcode, PR; cbn [app]; rewrite E1; cbn [obind]; reflexivity|]. split; [|apply weight_rm, weight1_pos].
    constructor; cbn [tn_proc tn_perm tn_wire].
    + apply Forall_app; auto.
    + intros c Hc. destruct (Z.eq_dec c p) as [->|Hcp].
      * rewrite upd_same. cbn [tq_code]. rewrite flat_map_app, (flat_none R1 p HF). auto.
      * rewrite upd_other by auto. rewrite I2, !flat_map_app by auto. cbn [flat_map]. rewrite PO by auto. auto.
    + intros c Hc. apply (rcv_frame s _ R1 (UCopy p b f t, st) None R2 c (I3 c Hc)); auto.
      cbn [tn_proc]. destruct (Z.eq_dec c p) as [->|Hcp]; [rewrite upd_same; auto|rewrite upd_other; auto].
    + apply (HRm m'); auto.
      * cbn beta. rewrite upd_same. auto.
      * intros c Hc. cbn beta. rewrite upd_other by auto. auto.
  - destruct U3 as (U5 & U6 & U7). destruct (Z.eq_dec p q) as [<-|Hpq].
    + (* receiver *)
      assert (PR : proju p (UXfer a ma b p mq ro, st) = [TRecv b a mq ro]).
      { destruct st; cbn; rewrite Z.eqb_refl; auto; destruct (p =? a) eqn:E1; auto; lia. }
      rewrite PR in Hcode, EC. cbn [app] in Hcode.
      assert (WR : match tq_wait (tn_proc s p) with None => (forall a, idle_pair s a p) /\ Forall (fresh_to p) (R1 ++ (UXfer a ma b p mq ro, st) :: R2) |
         Some r => Forall (fresh_to p) (R1 ++ R2) /\ (forall a', a' <> a -> idle_pair s a' p) /\ match st with Fresh => False
           | Asked r' => r' = r /\ starts b mq ro r /\ tn_perm s a p = (pr_count r, pr_es r) /\ 0 < pr_count r /\ pr_off r = 0 /\ tn_wire s a p = []
           | Sent r' d => r' = r /\ fst (tn_perm s a p) = 0 /\ tn_wire s a p = d end end).
      { pose proof (I3 p Hp) as W. unfold Rcv in W. destruct (tq_wait (tn_proc s p)) as [r|]; auto.
        destruct W as (Q1 & a' & ma' & bx & mq' & ro' & st' & Q2 & HR & HQ & HQ2 & HI & HS).
        destruct (UQ _ _ _ _ HR HQ eq_refl (rcv_proj a' ma' bx p mq' ro' st')) as (E1 & E2 & E3). subst Q1 Q2. injection E2 as <- <- <- <- <- <-. auto. }
      destruct st as [|r0|r0 d0].
      * (* start *)
        destruct (tq_wait (tn_proc s p)) as [r|] eqn:EW; [destruct WR as (_ & _ & []) |]. destruct WR as [WI WF].
        destruct HU as (r & d & r' & m' & (S1 & S2) & G1 & G2 & G3 & G4 & G5).
        destruct (starts_count _ _ _ _ S1) as (C1 & C2 & C3 & n & C4 & C5).
        assert (PO : forall c, proju c (UXfer a ma b p mq ro, Asked r) = proju c (UXfer a ma b p mq ro, Fresh)) by reflexivity.
        right. eexists. exists (R1 ++ (UXfer a ma b p mq ro, Asked r) :: R2).
        split; [unfold tstep; rewrite Hcode, EW; unfold starts in S1; rewrite S1; cbn [obind]; reflexivity|]. split.
        2: { apply weight_x. unfold weight1. cbn [fst snd]. rewrite C4, C5. lia. }
        constructor; cbn [tn_proc tn_perm tn_wire].
        -- apply Forall_app. split; auto. constructor; auto. repeat split; auto; lia.
        -- intros c Hc. rewrite !flat_map_app. cbn [flat_map]. rewrite PO. change (proju c (UXfer a ma b p mq ro, Fresh) ++ flat_map (proju c) R2) with (flat_map (proju c) ((UXfer a ma b p mq ro, Fresh) :: R2)). rewrite <- flat_map_app.
           destruct (Z.eq_dec c p) as [->|Hcp]; [rewrite upd_same; cbn [tq_code]|rewrite upd_other by auto]; auto. rewrite code_head, PR by auto. auto.
        -- intros c Hc. destruct (Z.eq_dec c p) as [->|Hcp].
           ++ unfold Rcv. cbn [tn_proc]. rewrite upd_same. cbn [tq_wait]. exists R1, a, ma, b, mq, ro, (Asked r), R2. split; auto. split; auto.
              rewrite Forall_app in WF. destruct WF as [W1 W2]. inversion W2; subst. split; [apply Forall_app; auto|]. split.
              ** intros a' Ha'. unfold idle_pair. cbn [tn_perm tn_wire]. rewrite upd2_other by auto. apply WI.
              ** cbn [tn_perm tn_wire]. rewrite upd2_same. destruct (WI a) as [WA WB]. rewrite WA. change (0 =? 0) with true. cbn iota. repeat split; auto.
           ++ apply (rcv_frame s _ R1 (UXfer a ma b p mq ro, Fresh) (Some (UXfer a ma b p mq ro, Asked r)) R2 c (I3 c Hc)); auto.
              ** cbn [tn_proc]. rewrite upd_other; auto.
              ** intros a'. cbn [tn_perm tn_wire]. rewrite upd2_other by auto. auto.
        -- apply (HX _ (M1 p)).
           ++ intros K K1 K2. exists r, d, r', m'. rewrite K1. assert (K a = M1 a) by (apply K2; lia). rewrite H. repeat split; auto. intros c Hc. rewrite K2; auto.
           ++ cbn beta. rewrite upd_same. cbn [tq_mem]. auto.
           ++ intros c Hc. cbn beta. rewrite upd_other; auto.
      * (* waits for data *)
        destruct (tq_wait (tn_proc s p)) as [r|] eqn:EW.
        2:{ destruct WR as [_ W]. rewrite Forall_app in W. destruct W as [_ W]. inversion W as [|? ? W1 _]; subst. specialize (W1 eq_refl). discriminate. }
        destruct WR as (W1 & W2 & -> & W4 & W5 & W6 & W7 & W8). left. unfold tstep. rewrite Hcode, EW. unfold recv_done. replace (pr_off r <? pr_count r) with true by lia. cbn [negb]. rewrite W8.
        split; [reflexivity|]. intros HA. specialize (ACT HA eq_refl). cbn in ACT. lia.
      * destruct (tq_wait (tn_proc s p)) as [r|] eqn:EW.
        2:{ destruct WR as [_ W]. rewrite Forall_app in W. destruct W as [_ W]. inversion W as [|? ? W1 _]; subst. specialize (W1 eq_refl). discriminate. }
        destruct WR as (W1 & W2 & -> & W4 & W5). destruct HU as (r1 & d & r' & m' & (-> & ->) & G1 & G2 & G3 & G4 & G5).
        assert (PO : forall c, c <> p -> forall r d, proju c (UXfer a ma b p mq ro, Sent r d) = []) by (intros c Hc r1 d1; cbn; destruct (c =? p) eqn:Ec; auto; lia).
        destruct (recv_done r) eqn:ED.
        -- (* end of receive *)
           assert (Hd0 : d0 = []) by (unfold recv_done in ED; destruct d0; auto; unfold zlen in G3; cbn [length] in G3; lia). rewrite Hd0 in *. clear Hd0. cbn [gets] in G1. injection G1 as <- <-.
           right. eexists. exists (R1 ++ R2). split; [unfold tstep; rewrite Hcode, EW, ED; reflexivity|]. split; [|apply weight_rm, weight1_pos].
           constructor; cbn [tn_proc tn_perm tn_wire].
           ++ apply Forall_app; auto.
           ++ intros c Hc. destruct (Z.eq_dec c p) as [->|Hcp].
              ** rewrite upd_same. cbn [tq_code]. rewrite flat_map_app, (flat_none R1 p HF). auto.
              ** rewrite upd_other by auto. rewrite I2, !flat_map_app by auto. cbn [flat_map]. rewrite PO by auto. auto.
           ++ intros c Hc. destruct (Z.eq_dec c p) as [->|Hcp].
              ** unfold Rcv. cbn [tn_proc]. rewrite upd_same. cbn [tq_wait]. split; auto. intros a'. unfold idle_pair. cbn [tn_perm tn_wire]. destruct (Z.eq_dec a' a) as [->|Ha]; [auto|apply W2; auto].
              ** apply (rcv_frame s _ R1 (UXfer a ma b p mq ro, Sent r []) None R2 c (I3 c Hc)); auto. cbn [tn_proc]. rewrite upd_other; auto.
           ++ apply (HRm (M1 p)); auto.
              ** cbn beta. rewrite upd_same. auto.
              ** intros c Hc. cbn beta. rewrite upd_other; auto.
        -- destruct d0 as [|e d0]; [unfold recv_done in ED; unfold zlen in G3; cbn [length] in G3; lia|]. cbn [gets] in G1. rewrite HM in G1.
           destruct (tcp_get rd r (tq_mem (tn_proc s p)) e) as [[r2 m2]| | | |] eqn:EG; try discriminate. cbn [obind fst snd] in G1.
           destruct (get_off _ _ _ _ _ EG) as [O1 O2].
           right. eexists. exists (R1 ++ (UXfer a ma b p mq ro, Sent r2 d0) :: R2).
           split; [unfold tstep; rewrite Hcode, EW, ED, W5, EG; cbn [obind fst snd]; reflexivity|]. split; [|apply weight_x; unfold weight1; cbn [snd length]; lia].
           constructor; cbn [tn_proc tn_perm tn_wire].
           ++ apply Forall_app. split; auto. constructor; auto. repeat split; auto; lia.
           ++ intros c Hc. rewrite !flat_map_app. cbn [flat_map]. change (proju c (UXfer a ma b p mq ro, Sent r2 d0)) with (proju c (UXfer a ma b p mq ro, Sent r (e :: d0))).
              change (proju c (UXfer a ma b p mq ro, Sent r (e :: d0)) ++ flat_map (proju c) R2) with (flat_map (proju c) ((UXfer a ma b p mq ro, Sent r (e :: d0)) :: R2)). rewrite <- flat_map_app.
              destruct (Z.eq_dec c p) as [->|Hcp]; [rewrite upd_same; cbn [tq_code]|rewrite upd_other by auto]; auto. rewrite code_head, PR by auto. auto.
           ++ intros c Hc. destruct (Z.eq_dec c p) as [->|Hcp].
              ** unfold Rcv. cbn [tn_proc]. rewrite upd_same. cbn [tq_wait]. exists R1, a, ma, b, mq, ro, (Sent r2 d0), R2. split; auto. split; auto. split; auto. split.
                 --- intros a' Ha'. unfold idle_pair. cbn [tn_perm tn_wire]. rewrite upd2_other by auto. apply W2; auto.
                 --- cbn [tn_perm tn_wire]. rewrite upd2_same. auto.
              ** apply (rcv_frame s _ R1 (UXfer a ma b p mq ro, Sent r (e :: d0)) (Some (UXfer a ma b p mq ro, Sent r2 d0)) R2 c (I3 c Hc)); auto.
                 --- cbn [tn_proc]. rewrite upd_other; auto.
                 --- intros a'. cbn [tn_perm tn_wire]. rewrite upd2_other by auto. auto.
           ++ apply (HX _ m2).
              ** intros K K1 K2. exists r2, d0, r', m'. rewrite K1. repeat split; auto.
                 --- unfold zlen in *. cbn [length] in G3. lia.
                 --- intros c Hc. rewrite K2; auto.
              ** cbn beta. rewrite upd_same. auto.
              ** intros c Hc. cbn beta. rewrite upd_other; auto.
    + (* sender *)
      assert (Hnr : forall r d, st <> Sent r d).
      { intros r d ->. apply Hx. cbn. destruct (p =? q) eqn:E1; auto. lia. }
      assert (a = p).
      { destruct (Z.eq_dec p a); auto. exfalso. apply Hx. destruct st; cbn; destruct (p =? q) eqn:E1; try lia; destruct (p =? a) eqn:E2; try lia; auto. }
      subst a. assert (PR : proju p (UXfer p ma b q mq ro, st) = [TSend ma b q]).
      { destruct st; try (exfalso; eapply Hnr; reflexivity); cbn; rewrite Z.eqb_refl; destruct (p =? q) eqn:E1; auto; lia. }
      rewrite PR in Hcode, EC. cbn [app] in Hcode. pose proof (I3 q U6) as W. unfold Rcv in W.
      destruct st as [|r0|r0 d0]; [| |exfalso; eapply Hnr; reflexivity].
      * (* no permission *)
        assert (HP : fst (tn_perm s p q) = 0).
        { destruct (tq_wait (tn_proc s q)) as [r|]; [|apply W]. destruct W as (Q1 & a' & ma' & bx & mq' & ro' & st' & Q2 & HR & HQ & HQ2 & HI & HS).
          destruct (Z.eq_dec a' p) as [->|Ha]; [|apply HI; auto]. destruct (split_tri _ _ _ _ _ _ HR) as [(Q & -> & ->)|[(-> & EX & ->)|(Q & -> & ->)]].
          - rewrite Forall_app in HF. destruct HF as [_ HF]. inversion HF as [|? ? HF1 _]; subst. destruct st'; [destruct HS| |apply HS]. cbn in HF1. rewrite Z.eqb_refl in HF1. discriminate.
          - injection EX as _ _ _ _ <-. destruct HS.
          - rewrite Forall_app in HQ. destruct HQ as [_ HQ]. inversion HQ as [|? ? HF1 _]; subst. destruct (rcv_proj _ _ _ _ _ _ _ HF1). }
        left. unfold tstep. rewrite Hcode. destruct (tn_perm s p q) as [cnt es]. cbn [fst] in HP. subst cnt. change (0 =? 0) with true. cbn iota. split; [reflexivity|].
        intros HA. specialize (ACT HA eq_refl). cbn in ACT. lia.
      * destruct (tq_wait (tn_proc s q)) as [r|] eqn:EW.
        2:{ destruct W as [_ W]. rewrite Forall_app in W. destruct W as [_ W]. inversion W as [|? ? W1 _]; subst. specialize (W1 eq_refl). discriminate. }
        destruct W as (Q1 & a' & ma' & bx & mq' & ro' & st' & Q2 & HR & HQ & HQ2 & HI & HS).
        destruct (split_tri _ _ _ _ _ _ HR) as [(Q & -> & ->)|[(<- & EX & <-)|(Q & -> & ->)]].
        1:{ rewrite !Forall_app in HQ2. destruct HQ2 as (_ & _ & HQ2). inversion HQ2 as [|? ? F1 _]; subst. specialize (F1 eq_refl). discriminate. }
        2:{ rewrite !Forall_app in HQ2. destruct HQ2 as ((_ & HQ2) & _). inversion HQ2 as [|? ? F1 _]; subst. specialize (F1 eq_refl). discriminate. }
        injection EX as <- <- <- <- <- <-. destruct HS as (-> & HS1 & HS2 & HS3 & HS4 & HS5).
        destruct HU as (r1 & d & r' & m' & (-> & S2) & G1 & G2 & G3 & G4 & G5). rewrite HM in S2.
        right. eexists. exists (R1 ++ (UXfer p ma b q mq ro, Sent r d) :: R2).
        split; [unfold tstep; rewrite Hcode, HS2; replace (pr_count r =? 0) with false by lia; rewrite S2; cbn [obind]; reflexivity|]. split.
        2: { apply weight_x. unfold weight1. cbn [snd]. unfold zlen in G3. lia. }
        constructor; cbn [tn_proc tn_perm tn_wire].
        -- apply Forall_app. split; auto. constructor; auto. repeat split; auto; lia.
        -- intros c Hc. destruct (Z.eq_dec c p) as [->|Hcp].
           ++ rewrite upd_same. cbn [tq_code]. rewrite code_head by auto. cbn [proju]. destruct (p =? q) eqn:E1; [lia|]. auto.
           ++ rewrite upd_other by auto. rewrite I2, !flat_map_app by auto. cbn [flat_map]. f_equal. f_equal. cbn. destruct (c =? p) eqn:E1; auto; lia.
        -- intros c Hc. destruct (Z.eq_dec c q) as [->|Hcq].
           ++ unfold Rcv. cbn [tn_proc]. rewrite upd_other by auto. rewrite EW. exists R1, p, ma, b, mq, ro, (Sent r d), R2. split; auto. split; auto. split; auto. split.
              ** intros a' Ha'. unfold idle_pair. cbn [tn_perm tn_wire]. rewrite !upd2_other by auto. apply HI; auto.
              ** cbn [tn_perm tn_wire]. rewrite !upd2_same. rewrite HS5. auto.
           ++ apply (rcv_frame s _ R1 (UXfer p ma b q mq ro, Asked r) (Some (UXfer p ma b q mq ro, Sent r d)) R2 c (I3 c Hc)); auto.
              ** cbn [tn_proc]. destruct (Z.eq_dec c p) as [->|Hcp]; [rewrite upd_same; auto|rewrite upd_other; auto].
              ** intros a'. cbn [tn_perm tn_wire]. rewrite !upd2_other by auto. auto.
              ** cbn. destruct (c =? q) eqn:E1; [lia|]. intros; auto.
        -- apply (HX _ (M1 p)).
           ++ intros K K1 K2. exists r, d, r', m'. rewrite (K2 q) by auto. repeat split; auto. intros c Hc. rewrite G5 by auto. destruct (Z.eq_dec c p) as [->|Hcp]; [congruence|rewrite K2; auto].
           ++ cbn beta. rewrite upd_same. cbn [tq_mem]. auto.
           ++ intros c Hc. cbn beta. rewrite upd_other; auto.
Qed.
End Gen.
