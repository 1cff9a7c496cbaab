(* Moving boxes between processes: values of indexes are kept and delivered. *)
From Coq Require Import ZArith List Bool Lia ZifyBool ZifyNat.
From Verif Require Import Base ListFacts Model_Space Model_RangeList Model_Mem Model_Layout Model_Partitioner Model_Transition Model_Data
  Model_Action Model_ActionTrans Model_ActionExec Model_ActionExec2 Model_Switch Model_KVS Model_SpaceStore Model_Tcp2 Model_Tcp2Exec.
From Verif Require Import Spec_Space Spec_Layout Spec_Data Spec_ActionTrans Spec_Reduce Spec_Switch Spec_Tcp2Exec Spec_SwitchNd.
From Verif Require Import Proof_Layout2 Proof_Comb3 Proof_Reduce1 Proof_Tcp2Exec1 Proof_SwitchNd1.
Import ListNotations.
Open Scope Z_scope.

Lemma inbox_dec d i b : {InBox d i b} + {~ InBox d i b}.
Proof.
  unfold InBox. destruct (Z_le_dec (i0 (b_from b)) (i0 i)), (Z_lt_dec (i0 i) (i0 (b_to b))), (Z_le_dec (i1 (b_from b)) (i1 i)), (Z_lt_dec (i1 i) (i1 (b_to b))),
    (Z_le_dec (i2 (b_from b)) (i2 i)), (Z_lt_dec (i2 i) (i2 (b_to b))), (lt_dec 1 d), (lt_dec 2 d); try (left; split; [lia|]; split; intros; lia); right; intros (H0 & H1 & H2); lia.
Qed.

Section Inv.
Variable sp : space.
Variable es : Z.
Let d := sp_dims sp.
Hypothesis Hd : valid_dims d.
Hypothesis Hes : 0 < es.
(* process p has index i in map f before / in map t afterwards *)
Variables S D : Z -> lmap -> index -> Prop.
Variable m0 : Z -> mem.
Hypothesis S_same : forall p f i j, S p f i -> SameIndex d i j -> S p f j /\ ad f i = ad f j.
Hypothesis D_same : forall p f i j, D p f i -> SameIndex d i j -> D p f j /\ ad f i = ad f j.
Hypothesis SD : forall p f t i j, S p f i -> D p t j -> SameIndex d i j /\ ad f i = ad t j \/ Away (ad f i) es (ad t j) es.
Hypothesis DD : forall p t t' i j, D p t i -> D p t' j -> SameIndex d i j /\ ad t i = ad t' j \/ Away (ad t i) es (ad t' j) es.
Hypothesis Uq : forall s f s' f' i, S s f i -> S s' f' i -> rdb (m0 s) (ad f i) es = rdb (m0 s') (ad f' i) es.

Definition entry := (Z * lmap * box)%type.
Definition Wr (W : list entry) (p : Z) (t : lmap) (i : index) : Prop := exists b, In (p, t, b) W /\ InBox d i b.
Record NInv (W : list entry) (M : Z -> mem) : Prop := {
  ni_src : forall s f i, S s f i -> rdb (M s) (ad f i) es = rdb (m0 s) (ad f i) es;
  ni_dst : forall p t i, D p t i -> Wr W p t i -> forall s f, S s f i -> rdb (M p) (ad t i) es = rdb (m0 s) (ad f i) es;
  ni_frame : forall p y, (forall t i, D p t i -> ~ cell es t i y) -> M p y = m0 p y }.

Lemma ninv_start : NInv [] m0.
Proof. constructor; auto. intros p t i _ (b & [] & _). Qed.

Lemma ninv_move W M s f q t b m' : NInv W M -> (forall i, InBox d i b -> S s f i /\ D q t i) -> Moved d es b f t (M s) (M q) m' ->
  NInv ((q, t, b) :: W) (upd M q m').
Proof.
  intros [I1 I2 I3] HB [M1 M2].
  assert (NEW : forall j s' f', InBox d j b -> S s' f' j -> rdb m' (ad t j) es = rdb (m0 s') (ad f' j) es).
  { intros j s' f' Hj Hs. rewrite M1 by auto. destruct (HB j Hj) as [B1 _]. rewrite (I1 s f j B1). apply Uq; auto. }
  (* a cell is the one of the index, or not changed *)
  assert (CH : forall a i, (forall j, InBox d j b -> SameIndex d i j /\ a = ad t j \/ Away a es (ad t j) es) ->
     (InBox d i b /\ a = ad t i) \/ rdb m' a es = rdb (M q) a es).
  { intros a i H.
    assert (K : (forall j, InBox d j b -> Away a es (ad t j) es) -> rdb m' a es = rdb (M q) a es).
    { intros HA. apply rdb_ext. intros y Hy. apply M2. intros j Hj Hy2. specialize (HA j Hj). unfold Away, cell, region in *. lia. }
    destruct (inbox_dec d i b) as [Hi|Hi].
    - destruct (Z.eq_dec a (ad t i)) as [E|E]; [left; auto|]. right. apply K. intros j Hj. destruct (H j Hj) as [[H1 H2]|H1]; auto.
      exfalso. destruct (HB i Hi) as [_ B2]. destruct (D_same q t i j B2 H1) as [_ B3]. congruence.
    - right. apply K. intros j Hj. destruct (H j Hj) as [[H1 H2]|H1]; auto. exfalso. apply Hi. apply (in_same d Hd b j i); auto. apply same_sym; auto. }
  constructor.
  - intros s' f' i Hs. destruct (Z.eq_dec s' q) as [->|Hn]; [|rewrite upd_other by auto; apply I1; auto]. rewrite upd_same.
    destruct (CH (ad f' i) i) as [[C1 C2]|C].
    + intros j Hj. apply (SD q f' t i j Hs). apply HB; auto.
    + rewrite C2, (NEW i q f' C1 Hs), <- C2. reflexivity.
    + rewrite C. apply I1; auto.
  - intros p t' i HD HW s' f' Hs. destruct (Z.eq_dec p q) as [->|Hn].
    + rewrite upd_same. destruct (CH (ad t' i) i) as [[C1 C2]|C].
      * intros j Hj. apply (DD q t' t i j HD). apply HB; auto.
      * rewrite C2. apply NEW; auto.
      * destruct HW as (b' & [E|HW] & Hi); [|rewrite C; apply (I2 q t' i HD); auto; exists b'; auto].
        injection E as <- <-. apply NEW; auto.
    + rewrite upd_other by auto. apply (I2 p t' i HD); auto. destruct HW as (b' & [E|HW] & Hi); [congruence|]. exists b'. auto.
  - intros p y Hy. destruct (Z.eq_dec p q) as [->|Hn]; [|rewrite upd_other by auto; apply I3; auto]. rewrite upd_same.
    rewrite M2; [apply I3; auto|]. intros i Hi. apply Hy. apply HB; auto.
Qed.

(* nothing was written by a process *)
Lemma ninv_idle W M p : NInv W M -> (forall t b, ~ In (p, t, b) W) -> NInv W (upd M p (m0 p)).
Proof.
  intros [I1 I2 I3] HN. constructor.
  - intros s f i Hs. destruct (Z.eq_dec s p) as [->|Hn]; [rewrite upd_same; auto|rewrite upd_other by auto; auto].
  - intros p' t i HD HW s f Hs. destruct (Z.eq_dec p' p) as [->|Hn]; [destruct HW as (b & HW & _); destruct (HN t b HW)|rewrite upd_other by auto; apply (I2 p' t i); auto].
  - intros p' y Hy. destruct (Z.eq_dec p' p) as [->|Hn]; [rewrite upd_same; auto|rewrite upd_other by auto; auto].
Qed.
Lemma ninv_same W M p mm : NInv W M -> (mm = M p) -> NInv W (upd M p mm).
Proof.
  intros [I1 I2 I3] ->. constructor.
  - intros s f i Hs. destruct (Z.eq_dec s p) as [->|Hn]; [rewrite upd_same; auto|rewrite upd_other by auto; auto].
  - intros p' t i HD HW s f Hs. destruct (Z.eq_dec p' p) as [->|Hn]; [rewrite upd_same; eapply I2; eauto|rewrite upd_other by auto; apply (I2 p' t i); auto].
  - intros p' y Hy. destruct (Z.eq_dec p' p) as [->|Hn]; [rewrite upd_same; auto|rewrite upd_other by auto; auto].
Qed.

(* messages *)
Variable rd : redop -> list Z -> list Z -> outcome (list Z).
Variable gen : bool.
Variable bin : Z -> Z -> bool.
Hypothesis Hfit : FitsNd sp bin es.
Definition UOk (u : unit_) : Prop :=
  match u with
  | UXfer s f b q t RO_None => View sp es f b /\ View sp es t b /\ 0 <= q /\ NonEmpty d b /\ vol d b < 2 ^ 31 /\ forall i, InBox d i b -> S s f i /\ D q t i
  | _ => False
  end.
Definition dst_of (u : unit_) : list entry := match u with UXfer s f b q t ro => [(q, t, b)] | _ => [] end.
Lemma msgs_run U : Forall UOk U -> forall W M, NInv W M ->
  exists E, effs rd gen bin sp (map (fun u => (u, Fresh)) U) M E /\ NInv (rev (flat_map dst_of U) ++ W) E.
Proof.
  induction 1 as [|u U Hu HU IH]; intros W M HI; cbn [map effs flat_map rev app].
  - exists M. split; auto.
  - destruct u as [|s f b q t ro]; [destruct Hu|]. destruct ro; try (destruct Hu; fail). destruct Hu as (U1 & U2 & U3 & U4 & U5 & U6).
    destruct (xfer_nd rd gen bin sp es Hd Hes Hfit s f q t b M U1 U2 U3 U4 U5) as (m' & X1 & X2).
    destruct (IH ((q, t, b) :: W) (upd M q m') (ninv_move W M s f q t b m' HI U6 X2)) as (E & E1 & E2).
    exists E. split; [exists (upd M q m'); auto|]. cbn [dst_of app]. cbn [rev]. rewrite <- app_assoc. exact E2.
Qed.
End Inv.
