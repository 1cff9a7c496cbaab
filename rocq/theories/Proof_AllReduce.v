(* Proofs for reductions done by one collective operation of all processes *)
From Coq Require Import ZArith List Bool Lia ZifyBool ZifyNat Permutation Sorted.
From Verif Require Import Base ListFacts Model_Space Spec_Space Proof_Space Model_RangeList Spec_RangeList Proof_RangeList
  Model_Partitioner Spec_Partitioner Model_Group Proof_Group Model_Transition Spec_Transition Proof_Layout2
  Proof_Trans1 Proof_Trans2 Proof_Trans3 Proof_Trans4 Proof_Trans5 Proof_Trans6 Model_Action Model_ActionTrans Spec_AllReduce.
Import ListNotations.
Open Scope Z_scope.

(* ---------- only number -1 stands for all processes ---------- *)

Section NoFull.
  Variable gsize : Z.
  Definition okgrp (gl : list (list Z)) (k : Z) : Prop :=
    k = -1 \/ exists g, 0 <= k /\ nth_error gl (Z.to_nat k) = Some g /\ Z.of_nat (length g) <> gsize.
  Definition nofull (o : tops) : Prop := forall x, In x (tp_red o) -> okgrp (tp_groups o) (rd_in x) /\ okgrp (tp_groups o) (rd_out x).

  Lemma okgrp_app gl e k : okgrp gl k -> okgrp (gl ++ e) k.
  Proof.
    intros [->|[g [A [B C]]]]; [left; auto|]. right. exists g. split; auto. split; auto.
    rewrite nth_error_app1; auto. apply nth_error_Some. congruence.
  Qed.
  Lemma getTaskGroup_ext gl tg : exists e, snd (getTaskGroup gl tg) = gl ++ e.
  Proof. unfold getTaskGroup. destruct (find_group tg 0 gl); [exists []; rewrite app_nil_r; auto|exists [tg]; auto]. Qed.

  Lemma seg_red_nofull red s bx o : nofull (c_ops s) -> seg_red gsize red s bx = Ok o -> nofull o.
  Proof.
    intros N H. unfold seg_red in H. cbv zeta in H.
    destruct (getTaskGroup_ext (tp_groups (c_ops s)) (c_in s)) as [e1 E1].
    destruct (getTaskGroup_ext (snd (getTaskGroup (tp_groups (c_ops s)) (c_in s))) (c_out s)) as [e2 E2].
    set (ri := getTaskGroup (tp_groups (c_ops s)) (c_in s)) in *. set (ro := getTaskGroup (snd ri) (c_out s)) in *.
    destruct (aread (snd ro) (fst ri)) as [gi| | | |] eqn:A1; try discriminate. cbn [obind] in H.
    destruct (aread (snd ro) (fst ro)) as [go| | | |] eqn:A2; try discriminate. cbn [obind] in H.
    apply cassert_ok in H. destruct H as [_ H]. injection H as <-.
    apply aread_ok in A1. apply aread_ok in A2. intros x Hx. simpl in Hx. apply in_app_iff in Hx. destruct Hx as [Hx|[<-|[]]].
    - destruct (N x Hx) as [K1 K2]. simpl. rewrite E2, E1. split; apply okgrp_app, okgrp_app; auto.
    - simpl. split.
      + destruct (Z.of_nat (length gi) =? gsize) eqn:B; [left; auto|right; exists gi; intuition lia].
      + destruct (Z.of_nat (length go) =? gsize) eqn:B; [left; auto|right; exists go; intuition lia].
  Qed.
  Lemma keep_nofull o o' : tp_red o' = tp_red o -> tp_groups o' = tp_groups o -> nofull o -> nofull o'.
  Proof. intros A B N x Hx. rewrite B. apply N. congruence. Qed.
  Lemma seg_out_keep myid s bx l : forall o, tp_red (fold_left (seg_out myid s bx) l o) = tp_red o /\ tp_groups (fold_left (seg_out myid s bx) l o) = tp_groups o.
  Proof. induction l as [|t l IH]; intros o; simpl; auto. destruct (IH (seg_out myid s bx o t)) as [-> ->]. unfold seg_out. destruct (t =? myid); auto. Qed.
  Lemma seg_in_keep myid i s bx l : forall o, tp_red (fold_left (seg_in myid i s bx) l o) = tp_red o /\ tp_groups (fold_left (seg_in myid i s bx) l o) = tp_groups o.
  Proof. induction l as [|t l IH]; intros o; simpl; auto. destruct (IH (seg_in myid i s bx o t)) as [-> ->]. unfold seg_in. destruct (negb (t =? myid)); auto. Qed.
  Lemma seg_ops_nofull keep myid red s b nb o : nofull (c_ops s) -> seg_ops keep gsize myid red s b nb = Ok o -> nofull o.
  Proof.
    intros N H. unfold seg_ops in H. destruct (negb (c_actIn s || c_actOut s)); [injection H as <-; auto|].
    apply cassert_ok in H. destruct H as [_ H]. cbv zeta in H.
    destruct (c_in s) as [|i [|j r]] eqn:E; try (apply (seg_red_nofull _ _ _ _ N H)).
    apply cassert_ok in H. destruct H as [_ H].
    destruct (i =? myid).
    - destruct (zlist_eqb (c_out s) [myid]); [injection H as <-; exact N|]. destruct (negb keep); [|apply (seg_red_nofull _ _ _ _ N H)].
      injection H as <-. destruct (seg_out_keep myid s (box1 b nb) (c_out s) (c_ops s)). apply (keep_nofull (c_ops s)); auto.
    - destruct (negb keep); [|apply (seg_red_nofull _ _ _ _ N H)].
      injection H as <-. destruct (seg_in_keep myid i s (box1 b nb) (c_out s) (c_ops s)). apply (keep_nofull (c_ops s)); auto.
  Qed.
  Lemma cs_update_ops myid s b s' : cs_update myid s b = Ok s' -> c_ops s' = c_ops s.
  Proof.
    unfold cs_update. cbv zeta. intros H. destruct (bd_isInput b), (bd_isStart b).
    - destruct (addTask max_tasks (c_in s) (bd_task b)) as [[g|]| | | |]; try discriminate. cbn [obind] in H. injection H as <-. auto.
    - destruct (rm_task (c_in s) (bd_task b)); try discriminate. injection H as <-. auto.
    - destruct (addTask max_tasks (c_out s) (bd_task b)) as [[g|]| | | |]; try discriminate. cbn [obind] in H. injection H as <-. auto.
    - destruct (rm_task (c_out s) (bd_task b)); try discriminate. injection H as <-. auto.
  Qed.
  Lemma cs_loop_nofull keep myid red l : forall s s', nofull (c_ops s) -> cs_loop keep gsize myid red s l = Ok s' -> nofull (c_ops s').
  Proof.
    induction l as [|b l IH]; intros s s' N H; cbn [cs_loop] in H; [injection H as <-; auto|].
    destruct (cs_update myid s b) as [s1| | | |] eqn:U; try discriminate. cbn [obind] in H. apply cs_update_ops in U.
    assert (N1 : nofull (c_ops s1)) by (rewrite U; auto).
    destruct l as [|nb l'].
    - cbn [obind] in H. apply (IH s1); auto.
    - destruct (bd_b nb >? bd_b b).
      + destruct (seg_ops keep gsize myid red s1 (bd_b b) (bd_b nb)) as [o| | | |] eqn:O; try discriminate. cbn [obind] in H.
        apply (IH (set_ops s1 o)); auto. simpl. apply (seg_ops_nofull _ _ _ _ _ _ _ N1 O).
      + cbn [obind] in H. apply (IH s1); auto.
  Qed.
  Lemma calc_nofull qb keep myid red fl tl o : calcAddReductions qb keep gsize myid red fl tl tops_empty = Ok o -> nofull o.
  Proof.
    unfold calcAddReductions. cbv zeta. assert (N0 : nofull tops_empty) by (intros x []).
    destruct (borders_of true 0 (-1) (-1) (rl_trs fl) ++ borders_of false 0 (-1) (-1) (rl_trs tl)); [intros H; injection H as <-; auto|].
    destruct (cs_loop keep gsize myid red _ _) as [s| | | |] eqn:L; try discriminate. cbn [obind]. intros H.
    apply cassert_ok in H. destruct H as [_ H]. apply cassert_ok in H. destruct H as [_ H]. injection H as <-.
    eapply cs_loop_nofull; [|exact L]. exact N0.
  Qed.
End NoFull.

(* ---------- the choice depends on the groups only ---------- *)

Definition choice (gsize : Z) (gi go : option (list Z)) : option Z :=
  match gi, go with
  | Some a, Some b =>
    if Z.of_nat (length a) =? gsize then
      if Z.of_nat (length b) =? gsize then Some (-1) else match b with [r] => Some r | _ => None end
    else None
  | _, _ => None
  end.

Lemma zcount_len n : 0 <= n -> Z.of_nat (length (zcount n)) = n.
Proof. intros H. unfold zcount. rewrite map_length, seq_length. lia. Qed.

Lemma collective_cases cx x : collective cx x =
  if rd_in x =? -1 then
    if rd_out x =? -1 then Some (-1) else
    match cx_group cx (rd_out x) with Ok [r] => Some r | _ => None end
  else None.
Proof.
  unfold collective, allred_one. cbn [a_par a_round]. destruct (rd_in x =? -1).
  - destruct (rd_out x =? -1); [reflexivity|]. destruct (cx_group cx (rd_out x)) as [[|r [|? ?]]| | | |]; reflexivity.
  - reflexivity.
Qed.

Lemma collective_choice gsize cx o x : 0 <= gsize -> ContextOf gsize cx o -> nofull gsize o -> In x (tp_red o) ->
  collective cx x = choice gsize (members gsize o (rd_in x)) (members gsize o (rd_out x)).
Proof.
  intros Hg [C1 C2] N Hx. destruct (N x Hx) as [K1 K2]. rewrite collective_cases. unfold choice, members.
  destruct K1 as [K1|[a [A1 [A2 A3]]]].
  - rewrite K1. change (-1 =? -1) with true. cbv iota. destruct K2 as [K2|[b [B1 [B2 B3]]]].
    + rewrite K2. change (-1 =? -1) with true. cbv iota. rewrite zcount_len, Z.eqb_refl by auto. reflexivity.
    + replace (rd_out x =? -1) with false by lia. replace (rd_out x <? 0) with false by lia. rewrite B2.
      rewrite zcount_len, Z.eqb_refl by auto. replace (Z.of_nat (length b) =? gsize) with false by lia.
      unfold cx_group. replace (rd_out x =? -1) with false by lia. rewrite C2.
      assert (L : (Z.to_nat (rd_out x) < length (tp_groups o))%nat) by (apply nth_error_Some; congruence).
      replace (rd_out x <? Z.of_nat (length (tp_groups o))) with true by lia. cbn [cassert].
      rewrite (aread_nth _ _ _ B1 B2). destruct b as [|r [|? ?]]; reflexivity.
  - replace (rd_in x =? -1) with false by lia. replace (rd_in x <? 0) with false by lia. rewrite A2.
    replace (Z.of_nat (length a) =? gsize) with false by lia. destruct (if rd_out x =? -1 then _ else _); reflexivity.
Qed.

Definition choose (gsize : Z) (e : box * redop * option (list Z) * option (list Z)) : list (box * redop * Z) :=
  match e with (b, r, gi, go) => match choice gsize gi go with Some k => [(b, r, k)] | None => [] end end.
Lemma collectives_choose gsize cx o : 0 <= gsize -> ContextOf gsize cx o -> nofull gsize o ->
  collectives cx o = flat_map (choose gsize) (reductions gsize o).
Proof.
  intros Hg C N. unfold collectives, reductions. rewrite flat_map_concat_map, flat_map_concat_map, map_map. f_equal. apply map_ext_in.
  intros x Hx. unfold choose. rewrite (collective_choice gsize cx o x Hg C N Hx). reflexivity.
Qed.

(* every process takes part in a collective operation *)
Lemma choose_member gsize o q : 0 <= q < gsize -> nofull gsize o ->
  flat_map (choose gsize) (reductions gsize o) = flat_map (choose gsize) (with_member q (reductions gsize o)).
Proof.
  intros Hq N. unfold with_member. assert (K : forall e, In e (reductions gsize o) -> has_member q (snd (fst e)) || has_member q (snd e) = false -> choose gsize e = []).
  { intros e He F. unfold reductions in He. apply in_map_iff in He. destruct He as [x [<- Hx]]. destruct (N x Hx) as [K1 _].
    cbn [fst snd] in F. apply orb_false_iff in F. destruct F as [F _]. unfold choose, choice.
    destruct K1 as [K1|[a [A1 [A2 A3]]]].
    - exfalso. rewrite K1 in F. unfold members in F. change (-1 =? -1) with true in F. cbv iota in F. cbn [has_member] in F.
      assert (existsb (Z.eqb q) (zcount gsize) = true); [|congruence]. apply existsb_exists. exists q. split; [|lia].
      unfold zcount. apply in_map_iff. exists (Z.to_nat q). split; [lia|]. apply in_seq. lia.
    - unfold members. replace (rd_in x =? -1) with false by lia. replace (rd_in x <? 0) with false by lia. rewrite A2.
      replace (Z.of_nat (length a) =? gsize) with false by lia. destruct (if rd_out x =? -1 then _ else _); reflexivity. }
  induction (reductions gsize o) as [|e l IH]; simpl; auto.
  destruct (has_member q (snd (fst e)) || has_member q (snd e)) eqn:E.
  - simpl. f_equal. apply IH. intros e' He. apply K. right; auto.
  - rewrite (K e (or_introl eq_refl) E). simpl. apply IH. intros e' He. apply K. right; auto.
Qed.

(* ---------- 2d and 3d ---------- *)

Lemma nd_red_nofull gsize red sp fl tl o o' : tp_red o = [] -> tp_groups o = [] -> nd_red gsize red sp fl tl o = Ok o' -> nofull gsize o'.
Proof.
  intros R0 G0 H. unfold nd_red in H. destruct (rl_isAll fl); [|discriminate].
  destruct (rl_isSingle tl) as [task| | | |]; try discriminate. cbn [obind] in H. rewrite G0 in H. cbv zeta in H.
  destruct (task <? 0).
  - destruct (rl_isAll tl); [|discriminate]. cbn [obind] in H. injection H as <-. intros x Hx. simpl in Hx. rewrite R0 in Hx.
    destruct Hx as [<-|[]]. split; left; reflexivity.
  - destruct (gsize =? 1) eqn:E.
    + destruct (task =? 0); [|discriminate]. cbn [cassert obind] in H. injection H as <-. intros x Hx. simpl in Hx. rewrite R0 in Hx.
      destruct Hx as [<-|[]]. split; left; reflexivity.
    + cbn [obind] in H. injection H as <-. intros x Hx. simpl in Hx. rewrite R0 in Hx.
      destruct Hx as [<-|[]]. split; [left; reflexivity|]. right. exists [task]. simpl. split; [lia|]. split; [reflexivity|lia].
Qed.
Lemma nd_sends_keep dims myfrom fl tl l : forall o o',
  ofold (fun o t => do tfrom <- task_ranges fl t; do tto <- task_ranges tl t; Ok (nd_send dims t myfrom tfrom tto o)) l o = Ok o' ->
  tp_red o' = tp_red o /\ tp_groups o' = tp_groups o.
Proof.
  induction l as [|t l IH]; intros o o' H; cbn [ofold] in H; [injection H as <-; auto|].
  destruct (task_ranges fl t) as [a| | | |]; try discriminate. destruct (task_ranges tl t) as [b| | | |]; try discriminate. cbn [obind] in H.
  apply IH in H. destruct (nd_send_ok dims t myfrom a b o) as [_ K]. unfold same_but_send in K. intuition congruence.
Qed.
Lemma nd_nofull gsize me red sp fl tl o : is_reduction red = true -> nd_preserve gsize me red sp fl tl tops_empty = Ok o -> nofull gsize o.
Proof.
  intros Hr H. unfold nd_preserve in H. cbv zeta in H. destruct (task_ranges fl me) as [a| | | |]; try discriminate.
  destruct (task_ranges tl me) as [b| | | |]; try discriminate. cbn [obind] in H. rewrite Hr in H.
  destruct (nd_local_ok (sp_dims sp) a b tops_empty) as [_ L]. unfold same_but_local in L. simpl in L.
  destruct (nd_red gsize red sp fl tl (nd_local (sp_dims sp) a b tops_empty)) as [o1| | | |] eqn:E; try discriminate. cbn [obind] in H.
  apply nd_red_nofull in E; [|intuition congruence|intuition congruence].
  apply nd_sends_keep in H. destruct H. apply (keep_nofull gsize o1); auto.
Qed.
