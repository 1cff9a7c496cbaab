(* Initialisation operations; transitions in 2d and 3d *)
From Coq Require Import ZArith List Bool Lia Permutation Sorted ZifyBool ZifyNat.
From Verif Require Import Base ListFacts Model_Space Spec_Space Proof_Space Model_RangeList Spec_RangeList Proof_RangeList Proof_RangeList4 Proof_RangeList5
  Model_Partitioner Spec_Partitioner Proof_Partitioner Proof_Partitioner2 Proof_Partitioner3 Model_Group Proof_Group Proof_Group3 Model_Transition Spec_Transition
  Proof_Trans1 Proof_Trans2 Proof_Trans3 Proof_Trans4 Proof_Trans5.
Import ListNotations.
Open Scope Z_scope.

Definition numbered (l : list trg) : list (Z * trg) := combine (zcount (Z.of_nat (length l))) l.

Lemma numbered_length l : length (numbered l) = length l.
Proof. unfold numbered. rewrite combine_length. pose proof (zcount_length (Z.of_nat (length l))). lia. Qed.

Lemma combine_nth {A B} (a : list A) (b : list B) n x y : nth_error a n = Some x -> nth_error b n = Some y -> nth_error (combine a b) n = Some (x, y).
Proof. revert b n. induction a as [|u a IH]; intros [|v b] [|n] H1 H2; simpl in *; try discriminate; auto. congruence. Qed.

Lemma numbered_nth l n x : nth_error l n = Some x -> nth_error (numbered l) n = Some (Z.of_nat n, x).
Proof.
  intros H. apply combine_nth; auto. rewrite zcount_nth. assert (n < length l)%nat by (apply nth_error_Some; congruence).
  destruct (Z.of_nat n <? Z.of_nat (length l)) eqn:E; [auto|lia].
Qed.
Lemma numbered_in l k x : In (k, x) (numbered l) <-> 0 <= k /\ nth_error l (Z.to_nat k) = Some x.
Proof.
  split.
  - intros H. apply In_nth_error in H. destruct H as [n H].
    assert (Hn : (n < length l)%nat) by (rewrite <- numbered_length; apply nth_error_Some; congruence).
    destruct (nth_error l n) as [y|] eqn:E; [|apply nth_error_None in E; lia].
    rewrite (numbered_nth _ _ _ E) in H. injection H as <- <-. rewrite Nat2Z.id. split; [lia|auto].
  - intros [H1 H2]. apply numbered_nth in H2. rewrite Z2Nat.id in H2 by lia. eapply nth_error_In; eauto.
Qed.
Lemma numbered_snd l : map snd (numbered l) = l.
Proof.
  apply nth_error_ext. intros n. rewrite nth_error_map. destruct (nth_error l n) as [x|] eqn:E.
  - rewrite (numbered_nth _ _ _ E). auto.
  - assert (H : nth_error (numbered l) n = None) by (apply nth_error_None; rewrite numbered_length; apply nth_error_None; auto). rewrite H. auto.
Qed.

Lemma task_ranges_ok l t : FrozenList l -> 0 <= t < rl_tids l -> task_ranges l t = Ok (numbered (mine t (rl_trs l))).
Proof.
  intros F0 Ht. destruct (FrozenList_Frozen _ F0) as [F _]. destruct (fz_off _ F) as [offs [Ho [Hl Hr]]].
  unfold task_ranges. rewrite Ho, (Hr t), (Hr (t + 1)) by lia. cbn [obind].
  rewrite (slice_mine _ _ (fz_sorted _ F)). pose proof (cnt_lt_bound t (rl_trs l)). pose proof (cnt_lt_bound (t + 1) (rl_trs l)).
  assert (E : (cnt_lt t (rl_trs l) <? 0) || (Z.of_nat (length (rl_trs l)) <? cnt_lt (t + 1) (rl_trs l)) = false) by lia.
  rewrite E. reflexivity.
Qed.

Lemma numbered_range l t k x : FrozenList l -> 0 <= t < rl_tids l ->
  (In (k, x) (numbered (mine t (rl_trs l))) <-> rl_tidrange l t k = Ok (Some x)).
Proof.
  intros F0 Ht. destruct (FrozenList_Frozen _ F0) as [F _]. rewrite numbered_in, (frozen_tidrange _ F) by auto.
  destruct (k <? 0) eqn:E; split; intros H.
  - lia.
  - discriminate.
  - destruct H as [_ ->]. auto.
  - injection H as H. split; [lia|auto].
Qed.

Lemma owns_num l t i : FrozenList l -> 0 <= t < rl_tids l ->
  (Owns l t i <-> exists y, In y (numbered (mine t (rl_trs l))) /\ InBox (sp_dims (rl_space l)) i (t_box (snd y))).
Proof.
  intros F Ht. split.
  - intros [n [x [H1 H2]]]. exists (n, x). split; auto. apply numbered_range; auto.
  - intros [[n x] [H1 H2]]. exists n, x. split; auto. apply numbered_range; auto.
Qed.

(* ---------- init ---------- *)

Definition init_of (red : redop) (x : Z * trg) : initTOp := mkInitT (t_box (snd x)) (fst x) (t_mapNo (snd x)) red.

Lemma init_ops_ok dims red l : forall o,
  match init_ops dims red l o with
  | Ok o' => (is_reduction red = true \/ forallb (fun x => box_isEmpty dims (t_box (snd x))) l = true) /\
     tp_init o' = tp_init o ++ map (init_of red) (filter (fun x => negb (box_isEmpty dims (t_box (snd x)))) l) /\
     tp_local o' = tp_local o /\ tp_send o' = tp_send o /\ tp_recv o' = tp_recv o /\ tp_red o' = tp_red o
  | Abort => is_reduction red = false /\ forallb (fun x => box_isEmpty dims (t_box (snd x))) l = false
  | _ => False
  end.
Proof.
  unfold init_ops. destruct (is_reduction red) eqn:R; induction l as [|x l IH]; intros o.
  - simpl. rewrite app_nil_r. auto 10.
  - cbn [ofold filter forallb]. destruct (box_isEmpty dims (t_box (snd x))) eqn:E; cbn [obind cassert negb andb map]; [exact (IH o)|].
    specialize (IH (add_init o (init_of red x))). unfold init_of in *.
    destruct (ofold _ l _); try (destruct IH; fail).
    + destruct IH as [I1 [I2 I3]]. split; auto. split; auto. rewrite I2. simpl. rewrite <- app_assoc. reflexivity.
    + destruct IH; discriminate.
  - simpl. rewrite app_nil_r. auto 10.
  - cbn [ofold filter forallb]. destruct (box_isEmpty dims (t_box (snd x))) eqn:E; cbn [obind cassert negb andb map]; [exact (IH o)|]. auto.
Qed.

(* ---------- nd ---------- *)

Definition opt_list {A} (o : option A) : list A := match o with Some a => [a] | None => [] end.

Lemma fold_add {A} (add : tops -> A -> tops) (sel : tops -> list A) (f : tops -> Z * trg -> tops) (g : Z * trg -> list A) (inv : tops -> tops -> Prop) :
  (forall o, inv o o) -> (forall a b c, inv a b -> inv b c -> inv a c) ->
  (forall o x, sel (f o x) = sel o ++ g x /\ inv o (f o x)) ->
  forall l o, sel (fold_left f l o) = sel o ++ flat_map g l /\ inv o (fold_left f l o).
Proof.
  intros I0 It H. induction l as [|x l IH]; intros o; simpl.
  - rewrite app_nil_r. auto.
  - destruct (H o x) as [H1 H2]. destruct (IH (f o x)) as [J1 J2]. rewrite J1, H1, <- app_assoc. split; auto. eapply It; eauto.
Qed.

Definition same_but_local (a b : tops) := tp_init a = tp_init b /\ tp_send a = tp_send b /\ tp_recv a = tp_recv b /\ tp_red a = tp_red b /\ tp_groups a = tp_groups b.
Definition same_but_send (a b : tops) := tp_init a = tp_init b /\ tp_local a = tp_local b /\ tp_recv a = tp_recv b /\ tp_red a = tp_red b /\ tp_groups a = tp_groups b.
Definition same_but_recv (a b : tops) := tp_init a = tp_init b /\ tp_local a = tp_local b /\ tp_send a = tp_send b /\ tp_red a = tp_red b /\ tp_groups a = tp_groups b.

Definition lo_of (x y : Z * trg) b := mkLocalT b (fst x) (fst y) (t_mapNo (snd x)) (t_mapNo (snd y)).
Definition rc_of (task : Z) (x : Z * trg) b := mkRecvT b (fst x) (t_mapNo (snd x)) task.
Definition sd_of (task : Z) (x : Z * trg) b := mkSendT b (fst x) (t_mapNo (snd x)) task.
Definition isect (d : nat) (x y : Z * trg) : list box := opt_list (box_intersect d (t_box (snd x)) (t_box (snd y))).

Definition locals d fr tr := flat_map (fun x => flat_map (fun y => map (lo_of x y) (isect d x y)) tr) fr.
Definition recvs d task myto myfrom tfrom :=
  flat_map (fun x => if has_equal d (t_box (snd x)) myfrom then [] else flat_map (fun y => map (rc_of task x) (isect d y x)) tfrom) myto.
Definition sends d task myfrom tfrom tto :=
  flat_map (fun x => if has_equal d (t_box (snd x)) tfrom then [] else flat_map (fun y => map (sd_of task x) (isect d x y)) tto) myfrom.

Lemma nd_local_ok d fr tr o : tp_local (nd_local d fr tr o) = tp_local o ++ locals d fr tr /\ same_but_local o (nd_local d fr tr o).
Proof.
  unfold nd_local, locals. apply (fold_add add_local tp_local _ _ same_but_local).
  - intros; repeat split; auto.
  - unfold same_but_local; intros; intuition congruence.
  - intros o' x. apply (fold_add add_local tp_local _ _ same_but_local).
    + intros; repeat split; auto.
    + unfold same_but_local; intros; intuition congruence.
    + intros o2 y. unfold isect. destruct (box_intersect d (t_box (snd x)) (t_box (snd y))); simpl.
      * split; auto. repeat split; auto.
      * rewrite app_nil_r. split; auto. repeat split; auto.
Qed.
Lemma nd_recv_ok d task myto myfrom tfrom o :
  tp_recv (nd_recv d task myto myfrom tfrom o) = tp_recv o ++ recvs d task myto myfrom tfrom /\ same_but_recv o (nd_recv d task myto myfrom tfrom o).
Proof.
  unfold nd_recv, recvs. apply (fold_add add_recv tp_recv _ _ same_but_recv).
  - intros; repeat split; auto.
  - unfold same_but_recv; intros; intuition congruence.
  - intros o' x. destruct (has_equal d (t_box (snd x)) myfrom); [rewrite app_nil_r; split; auto; repeat split; auto|].
    apply (fold_add add_recv tp_recv _ _ same_but_recv).
    + intros; repeat split; auto.
    + unfold same_but_recv; intros; intuition congruence.
    + intros o2 y. unfold isect. destruct (box_intersect d (t_box (snd y)) (t_box (snd x))); simpl.
      * split; auto. repeat split; auto.
      * rewrite app_nil_r. split; auto. repeat split; auto.
Qed.
Lemma nd_send_ok d task myfrom tfrom tto o :
  tp_send (nd_send d task myfrom tfrom tto o) = tp_send o ++ sends d task myfrom tfrom tto /\ same_but_send o (nd_send d task myfrom tfrom tto o).
Proof.
  unfold nd_send, sends. apply (fold_add add_send tp_send _ _ same_but_send).
  - intros; repeat split; auto.
  - unfold same_but_send; intros; intuition congruence.
  - intros o' x. destruct (has_equal d (t_box (snd x)) tfrom); [rewrite app_nil_r; split; auto; repeat split; auto|].
    apply (fold_add add_send tp_send _ _ same_but_send).
    + intros; repeat split; auto.
    + unfold same_but_send; intros; intuition congruence.
    + intros o2 y. unfold isect. destruct (box_intersect d (t_box (snd x)) (t_box (snd y))); simpl.
      * split; auto. repeat split; auto.
      * rewrite app_nil_r. split; auto. repeat split; auto.
Qed.

Definition others (gsize me : Z) := filter (fun t => negb (t =? me)) (zcount gsize).
Lemma others_in gsize me t : In t (others gsize me) <-> 0 <= t < gsize /\ t <> me.
Proof. unfold others. rewrite filter_In, zcount_In. lia. Qed.

Section Nd.
  Variables (sp : space) (gsize : Z) (fl tl : rlist).
  Hypothesis G : GoodNd sp gsize fl tl.
  Let d := sp_dims sp.
  Let F t := numbered (mine t (rl_trs fl)).
  Let T t := numbered (mine t (rl_trs tl)).


  Lemma dok : valid_dims d.
  Proof. destruct G as [Gf Gt Gfs Gts Gd Gft Gtt]. unfold valid_dims, d. tauto. Qed.
  Lemma trF t : 0 <= t < gsize -> task_ranges fl t = Ok (F t).
  Proof. intros H. destruct G as [Gf Gt Gfs Gts Gd Gft Gtt]. apply task_ranges_ok; auto. lia. Qed.
  Lemma trT t : 0 <= t < gsize -> task_ranges tl t = Ok (T t).
  Proof. intros H. destruct G as [Gf Gt Gfs Gts Gd Gft Gtt]. apply task_ranges_ok; auto. lia. Qed.

  Section Me.
  Variable me : Z.
  Hypothesis Hme : 0 <= me < gsize.
  Lemma ofold_recv l : forall o, (forall t, In t l -> 0 <= t < gsize) ->
    exists o', ofold (fun o t => do tfrom <- task_ranges fl t; Ok (nd_recv d t (T me) (F me) tfrom o)) l o = Ok o' /\
      tp_recv o' = tp_recv o ++ flat_map (fun t => recvs d t (T me) (F me) (F t)) l /\ same_but_recv o o'.
  Proof.
    induction l as [|t l IH]; intros o Hl.
    - exists o. simpl. rewrite app_nil_r. split; auto. split; auto. repeat split; auto.
    - cbn [ofold]. rewrite trF by (apply Hl; left; auto). cbn [obind].
      destruct (nd_recv_ok d t (T me) (F me) (F t) o) as [N1 N2].
      destruct (IH (nd_recv d t (T me) (F me) (F t) o)) as [o' [J1 [J2 J3]]]; [intros; apply Hl; right; auto|].
      exists o'. split; auto. split; [rewrite J2, N1, <- app_assoc; auto|]. unfold same_but_recv in *. intuition congruence.
  Qed.
  Lemma ofold_send l : forall o, (forall t, In t l -> 0 <= t < gsize) ->
    exists o', ofold (fun o t => do tfrom <- task_ranges fl t; do tto <- task_ranges tl t; Ok (nd_send d t (F me) tfrom tto o)) l o = Ok o' /\
      tp_send o' = tp_send o ++ flat_map (fun t => sends d t (F me) (F t) (T t)) l /\ same_but_send o o'.
  Proof.
    induction l as [|t l IH]; intros o Hl.
    - exists o. simpl. rewrite app_nil_r. split; auto. split; auto. repeat split; auto.
    - cbn [ofold]. rewrite trF, trT by (apply Hl; left; auto). cbn [obind].
      destruct (nd_send_ok d t (F me) (F t) (T t) o) as [N1 N2].
      destruct (IH (nd_send d t (F me) (F t) (T t) o)) as [o' [J1 [J2 J3]]]; [intros; apply Hl; right; auto|].
      exists o'. split; auto. split; [rewrite J2, N1, <- app_assoc; auto|]. unfold same_but_send in *. intuition congruence.
  Qed.

  (* closed form without reduction *)
  Record NdOps (o : tops) : Prop := {
    no_local : tp_local o = locals d (F me) (T me);
    no_recv : tp_recv o = flat_map (fun t => recvs d t (T me) (F me) (F t)) (others gsize me);
    no_send : tp_send o = flat_map (fun t => sends d t (F me) (F t) (T t)) (others gsize me);
    no_init : tp_init o = []; no_red : tp_red o = [] }.

  Lemma nd_none : exists o, nd_preserve gsize me RO_None sp fl tl tops_empty = Ok o /\ NdOps o.
  Proof.
    unfold nd_preserve. rewrite trF, trT by auto. cbn [obind is_reduction]. fold d. fold (others gsize me).
    destruct (nd_local_ok d (F me) (T me) tops_empty) as [L1 L2].
    destruct (ofold_recv (others gsize me) (nd_local d (F me) (T me) tops_empty)) as [o1 [R1 [R2 R3]]]; [intros t Ht; apply others_in in Ht; tauto|].
    rewrite R1. cbn [obind].
    destruct (ofold_send (others gsize me) o1) as [o2 [S1 [S2 S3]]]; [intros t Ht; apply others_in in Ht; tauto|].
    rewrite S1. exists o2. split; auto. unfold same_but_local, same_but_recv, same_but_send in *. simpl in *.
    destruct L2 as [A1 [A2 [A3 [A4 A5]]]]. destruct R3 as [B1 [B2 [B3 [B4 B5]]]]. destruct S3 as [C1 [C2 [C3 [C4 C5]]]].
    constructor.
    - congruence.
    - rewrite <- C3, R2, <- A3. reflexivity.
    - rewrite S2, <- B3, <- A2. reflexivity.
    - congruence.
    - congruence.
  Qed.

  End Me.

  Hypothesis NeF : NoEmpty fl.
  Hypothesis NeT : NoEmpty tl.
  Hypothesis U : Unique fl.

  Lemma inF t k x : 0 <= t < gsize -> In (k, x) (F t) -> rl_tidrange fl t k = Ok (Some x) /\ NonEmpty d (t_box x) /\ (forall i, InBox d i (t_box x) -> Owns fl t i).
  Proof.
    intros Ht H. destruct G as [Gf Gt Gfs Gts Gd Gft Gtt]. apply numbered_range in H; auto; [|lia]. split; auto. split; [pose proof (NeF _ _ _ H) as Q; rewrite Gfs in Q; exact Q|].
    intros i Hi. exists k, x. split; auto. rewrite Gfs. exact Hi.
  Qed.
  Lemma inT t k x : 0 <= t < gsize -> In (k, x) (T t) -> rl_tidrange tl t k = Ok (Some x) /\ NonEmpty d (t_box x) /\ (forall i, InBox d i (t_box x) -> Owns tl t i).
  Proof.
    intros Ht H. destruct G as [Gf Gt Gfs Gts Gd Gft Gtt]. apply numbered_range in H; auto; [|lia]. split; auto. split; [pose proof (NeT _ _ _ H) as Q; rewrite Gts in Q; exact Q|].
    intros i Hi. exists k, x. split; auto. rewrite Gts. exact Hi.
  Qed.
  Lemma ownsF t i : Owns fl t i -> 0 <= t < gsize /\ exists y, In y (F t) /\ InBox d i (t_box (snd y)).
  Proof.
    intros H. destruct G as [Gf Gt Gfs Gts Gd Gft Gtt]. assert (Ht : 0 <= t < gsize).
    { destruct H as [n [x [H _]]]. destruct (frozen_range_in _ _ _ _ Gf H) as [H1 H2]. destruct (FrozenList_Frozen _ Gf) as [Fz _].
      pose proof (fz_tasks _ Fz) as Q. rewrite Forall_forall in Q. specialize (Q x H1). lia. }
    split; auto. apply owns_num in H; auto; [|lia]. rewrite Gfs in H. exact H.
  Qed.
  Lemma ownsT t i : Owns tl t i -> 0 <= t < gsize /\ exists y, In y (T t) /\ InBox d i (t_box (snd y)).
  Proof.
    intros H. destruct G as [Gf Gt Gfs Gts Gd Gft Gtt]. assert (Ht : 0 <= t < gsize).
    { destruct H as [n [x [H _]]]. destruct (frozen_range_in _ _ _ _ Gt H) as [H1 H2]. destruct (FrozenList_Frozen _ Gt) as [Fz _].
      pose proof (fz_tasks _ Fz) as Q. rewrite Forall_forall in Q. specialize (Q x H1). lia. }
    split; auto. apply owns_num in H; auto; [|lia]. rewrite Gts in H. exact H.
  Qed.

  Lemma isect_in x y b i : In b (isect d x y) -> (InBox d i b <-> InBox d i (t_box (snd x)) /\ InBox d i (t_box (snd y))).
  Proof.
    unfold isect, opt_list, box_intersect. destruct (box_intersect_g zbox d (t_box (snd x)) (t_box (snd y))) eqn:E; [|intros []].
    intros [<-|[]]. eapply box_intersect_g_some; eauto.
  Qed.
  Lemma isect_some x y i : InBox d i (t_box (snd x)) -> InBox d i (t_box (snd y)) -> exists b, In b (isect d x y) /\ InBox d i b.
  Proof.
    intros H1 H2. unfold isect, opt_list, box_intersect. destruct (box_intersect_g zbox d (t_box (snd x)) (t_box (snd y))) eqn:E.
    - exists b. split; [left; auto|]. apply (box_intersect_g_some _ _ _ _ _ E). auto.
    - exfalso. eapply box_intersect_g_none; eauto.
  Qed.
  Lemma isect_nonempty x y b : NonEmpty d (t_box (snd x)) -> NonEmpty d (t_box (snd y)) -> In b (isect d x y) -> NonEmpty d b.
  Proof.
    intros H1 H2. unfold isect, opt_list, box_intersect. destruct (box_intersect_g zbox d (t_box (snd x)) (t_box (snd y))) eqn:E; [|intros []].
    intros [<-|[]]. exact (box_intersect_g_nonempty _ _ _ _ _ H1 H2 E).
  Qed.

  Lemma no_skip_send p q x : 0 <= p < gsize -> 0 <= q < gsize -> p <> q -> In x (F p) -> has_equal d (t_box (snd x)) (F q) = false.
  Proof.
    intros Hp Hq N Hx. destruct (has_equal d (t_box (snd x)) (F q)) eqn:E; auto. exfalso. unfold has_equal in E. apply existsb_exists in E.
    destruct E as [z [Z1 Z2]]. destruct x as [k x], z as [k' z]. simpl in Z2.
    destruct (inF p k x Hp Hx) as [_ [[i Hi] X]]. destruct (inF q k' z Hq Z1) as [_ [_ Y]].
    apply N. apply (U p q i); auto. apply Y. apply (proj1 (box_isEqual_sound d _ _ dok Z2 i)). auto.
  Qed.
  Lemma skip_recv p q y : 0 <= p < gsize -> 0 <= q < gsize -> p <> q -> In y (T q) -> has_equal d (t_box (snd y)) (F q) = true ->
    flat_map (fun x => isect d x y) (F p) = [].
  Proof.
    intros Hp Hq N Hy E. unfold has_equal in E. apply existsb_exists in E. destruct E as [z [Z1 Z2]].
    destruct (flat_map (fun x => isect d x y) (F p)) as [|b l] eqn:E; auto. exfalso.
    assert (Hb : In b (flat_map (fun x => isect d x y) (F p))) by (rewrite E; left; auto).
    apply in_flat_map in Hb. destruct Hb as [x [X1 X2]]. destruct x as [k x], z as [k' z], y as [k'' y]. simpl in *.
    destruct (inF p k x Hp X1) as [_ [Nx X]]. destruct (inF q k' z Hq Z1) as [_ [_ Y]]. destruct (inT q k'' y Hq Hy) as [_ [Ny _]].
    destruct (isect_nonempty (k, x) (k'', y) b Nx Ny X2) as [i Hi]. apply (isect_in _ _ _ i X2) in Hi. simpl in Hi. destruct Hi as [H1 H2].
    apply N. apply (U p q i); auto. apply Y. apply (proj1 (box_isEqual_sound d _ _ dok Z2 i)). auto.
  Qed.

  Lemma recvs_boxes p q : 0 <= p < gsize -> 0 <= q < gsize -> p <> q ->
    map rc_box (recvs d p (T q) (F q) (F p)) = flat_map (fun y => flat_map (fun x => isect d x y) (F p)) (T q).
  Proof.
    intros Hp Hq N. unfold recvs. rewrite map_flat_map. apply flat_map_eq. intros y Hy.
    destruct (has_equal d (t_box (snd y)) (F q)) eqn:E.
    - rewrite (skip_recv p q y); auto.
    - rewrite map_flat_map. apply flat_map_eq. intros x Hx. rewrite map_map. simpl. apply map_id.
  Qed.
  Lemma sends_boxes p q : 0 <= p < gsize -> 0 <= q < gsize -> p <> q ->
    map sd_box (sends d q (F p) (F q) (T q)) = flat_map (fun x => flat_map (fun y => isect d x y) (T q)) (F p).
  Proof.
    intros Hp Hq N. unfold sends. rewrite map_flat_map. apply flat_map_eq. intros x Hx. rewrite (no_skip_send p q); auto.
    rewrite map_flat_map. apply flat_map_eq. intros y Hy. rewrite map_map. simpl. apply map_id.
  Qed.
End Nd.

Lemma flat_map_nil {A B} (l : list A) : flat_map (fun _ => []) l = @nil B.
Proof. induction l; auto. Qed.
Lemma flat_map_perm2 {A B} (f g : A -> list B) l : Permutation (flat_map (fun a => f a ++ g a) l) (flat_map f l ++ flat_map g l).
Proof.
  induction l as [|a l IH]; simpl; auto. rewrite IH, <- !app_assoc. apply Permutation_app_head.
  rewrite !app_assoc. apply Permutation_app_tail. apply Permutation_app_comm.
Qed.
Lemma flat_map_swap {A B C} (f : A -> B -> list C) la lb :
  Permutation (flat_map (fun a => flat_map (f a) lb) la) (flat_map (fun b => flat_map (fun a => f a b) la) lb).
Proof.
  induction la as [|a la IH]; simpl.
  - rewrite flat_map_nil. auto.
  - rewrite IH. symmetry. apply (flat_map_perm2 (f a) (fun b => flat_map (fun a => f a b) la)).
Qed.

Lemma filter_others {A} (key : A -> Z) (f : Z -> list A) (p : Z) l : NoDup l -> (forall t x, In x (f t) -> key x = t) ->
  filter (fun x => key x =? p) (flat_map f l) = if memb p l then f p else [].
Proof.
  intros ND Hk. induction l as [|t l IH]; auto. inversion ND as [|? ? N1 N2]; subst. simpl. rewrite filter_app, IH by auto. rewrite (Z.eqb_sym p t).
  destruct (t =? p) eqn:E; simpl.
  - assert (t = p) by lia. subst t. assert (M : memb p l = false) by (destruct (memb p l) eqn:Q; auto; apply memb_in in Q; tauto).
    rewrite M, app_nil_r. rewrite (filter_ext_in _ (fun _ => true)).
    + clear. induction (f p); simpl; congruence.
    + intros x Hx. rewrite (Hk p x Hx). lia.
  - rewrite (filter_ext_in _ (fun _ => false)).
    + rewrite filter_false. auto.
    + intros x Hx. rewrite (Hk t x Hx). lia.
Qed.

Lemma recvs_from d t a b c x : In x (recvs d t a b c) -> rc_from x = t.
Proof.
  unfold recvs. intros H. apply in_flat_map in H. destruct H as [y [_ H]]. destruct (has_equal d (t_box (snd y)) b); [destruct H|].
  apply in_flat_map in H. destruct H as [z [_ H]]. apply in_map_iff in H. destruct H as [q [<- _]]. auto.
Qed.
Lemma sends_to d t a b c x : In x (sends d t a b c) -> sd_to x = t.
Proof.
  unfold sends. intros H. apply in_flat_map in H. destruct H as [y [_ H]]. destruct (has_equal d (t_box (snd y)) b); [destruct H|].
  apply in_flat_map in H. destruct H as [z [_ H]]. apply in_map_iff in H. destruct H as [q [<- _]]. auto.
Qed.
