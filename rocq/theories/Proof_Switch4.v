(* The action sequence of a 1d transition: its parts. *)
From Coq Require Import ZArith List Bool Lia ZifyBool ZifyNat Sorted.
From Verif Require Import Base Model_Space Model_Mem Model_RangeList Model_Partitioner Model_Group Model_Transition Model_Data Model_Action Model_ActionTrans Model_ActionExec Model_ActionExec2 Model_Net Model_Switch.
From Verif Require Import Spec_Action Spec_ActionTrans Spec_Async Spec_Reduce.
From Verif Require Import Proof_Type Proof_Partitioner2 Proof_Group Proof_Trans1 Proof_Trans2 Proof_Comb3 Proof_Comb4 Proof_Comb5 Proof_Async1 Proof_Async2 Proof_Async3 Proof_Net Proof_Reduce1 Proof_Reduce2 Proof_Reduce3 Proof_Switch1 Proof_Switch2 Proof_Switch3.
Import ListNotations.
Open Scope Z_scope.

Lemma flatten_app cx l1 : forall nres a1 n1 c1 l2 a2 n2 c2, flatten_loop cx nres l1 = Ok (a1, n1, c1) -> flatten_loop cx n1 l2 = Ok (a2, n2, c2) ->
  flatten_loop cx nres (l1 ++ l2) = Ok (a1 ++ a2, n2, c1 || c2).
Proof.
  induction l1 as [|x l1 IH]; intros nres a1 n1 c1 l2 a2 n2 c2 H1 H2; cbn [flatten_loop app] in *.
  - injection H1 as <- <- <-. auto.
  - apply obind_ok in H1 as ([[xs n] c] & E1 & H1). apply obind_ok in H1 as ([[ys n'] c'] & E2 & H1). injection H1 as <- <- <-.
    rewrite E1. cbn [obind]. rewrite (IH _ _ _ _ _ _ _ _ E2 H2). cbn [obind]. rewrite app_assoc, orb_assoc. auto.
Qed.
Lemma split_app cx l1 : forall nres a1 n1 l2 a2 n2, split_loop cx nres l1 = Ok (a1, n1) -> split_loop cx n1 l2 = Ok (a2, n2) ->
  split_loop cx nres (l1 ++ l2) = Ok (a1 ++ a2, n2).
Proof.
  induction l1 as [|x l1 IH]; intros nres a1 n1 l2 a2 n2 H1 H2; cbn [split_loop app] in *.
  - injection H1 as <- <-. auto.
  - apply obind_ok in H1 as ([xs n] & E1 & H1). apply obind_ok in H1 as ([ys n'] & E2 & H1). injection H1 as <- <-. cbn [fst snd] in *.
    rewrite E1. cbn [obind fst snd]. rewrite (IH _ _ _ _ _ _ E2 H2). cbn [obind fst snd]. rewrite app_assoc. auto.
Qed.
Definition isnil {A} (l : list A) : bool := match l with [] => true | _ => false end.
Lemma texec_flat {A} cx (f : A -> outcome action) (g : A -> action) l :
  (forall x, In x l -> exists a, f x = Ok a /\ forall nres, flatten_one cx nres a = Ok ([g x], nres, true)) ->
  exists acts, omapm f l = Ok acts /\ forall nres, flatten_loop cx nres acts = Ok (map g l, nres, negb (isnil l)).
Proof.
  induction l as [|x l IH]; intros H.
  - exists []. auto.
  - destruct (H x) as (a & E1 & E2); [left; auto|]. destruct IH as (acts & E3 & E4); [intros; apply H; right; auto|].
    exists (a :: acts). cbn [omapm flatten_loop map isnil negb]. rewrite E1. cbn [obind]. rewrite E3. cbn [obind]. split; auto.
    intros nres. rewrite E2. cbn [obind]. rewrite E4. cbn [obind]. auto.
Qed.

Definition seg_of (b : box) : Z * Z := (i0 (b_from b), i0 (b_to b)).
Lemma seg_box k : seg_of (box1 (fst k) (snd k)) = k.
Proof. destruct k; reflexivity. Qed.

Lemma memb_two me g : Proof_Trans2.memb me g = memb me g.
Proof. unfold Proof_Trans2.memb, memb. induction g as [|x g IH]; auto. simpl. rewrite IH, Z.eqb_sym. auto. Qed.
Lemma flat_map_nil {A B} (f : A -> list B) l : (forall x, In x l -> f x = []) -> flat_map f l = [].
Proof. induction l as [|x l IH]; intros H; auto. simpl. rewrite (H x) by (left; auto). apply IH. intros; apply H; right; auto. Qed.
Lemma flat_map_ext_in' {A B} (f g : A -> list B) l : (forall x, In x l -> f x = g x) -> flat_map f l = flat_map g l.
Proof. induction l as [|x l IH]; intros H; auto. simpl. rewrite (H x) by (left; auto). f_equal. apply IH. intros; apply H; right; auto. Qed.
Lemma map_flat_map {A B C} (h : B -> C) (f : A -> list B) l : map h (flat_map f l) = flat_map (fun x => map h (f x)) l.
Proof. induction l as [|x l IH]; auto. simpl. rewrite map_app, IH. auto. Qed.

Section Plan.
  Variables fr tl : list trg.
  Variables gsize me : Z.
  Variable op : redop.
  Variable D : list (Z * Z).
  Variable o : tops.
  Variable cx : actx.
  Variable place : Z -> Z.
  Variable T : dtype.
  Variable oth : apar -> instr.
  Variables fromA toA : Z * Z -> Z.
  Let d := den2 cx place T oth.
  Let es := cx_es cx.
  Let L (inp : bool) := if inp then fr else tl.
  Definition pins (k : Z * Z) := owners gsize fr (fst k).
  Definition pouts (k : Z * Z) := owners gsize tl (fst k).
  Definition pcnt (k : Z * Z) := snd k - fst k.
  Definition pred (k : Z * Z) := match pins k with [_] => false | _ => true end.
  Let n k := pcnt k * es.

  Hypothesis HO : OpsInv fr tl gsize me op D o.
  Hypothesis Hes : 0 < es.
  Hypothesis Hdim : cx_dims cx = 1%nat.
  Hypothesis Hsize : cx_size cx = gsize.
  Hypothesis Hme : cx_me cx = me.
  Hypothesis Hgr : cx_groups cx = tp_groups o.
  Hypothesis Hseg : forall k, In k D -> 0 < pcnt k < 2 ^ 32.
  Hypothesis ND : NoDup D.
  Hypothesis Hcov : forall inp k, In k D -> In me (owners gsize (L inp) (fst k)) -> cov (L inp) me (fst k) = 1.
  Hypothesis HF : forall k R M, In k D -> In me (pins k) -> numok fr tl me true (box1 (fst k) (snd k)) R M ->
    exists l m, cx_from cx = Some l /\ aread l M = Ok m /\ am_base m <> 0 /\ am_from m <= fst k /\ am_base m + (fst k - am_from m) * es = fromA k.
  Hypothesis HT : forall k R M, In k D -> In me (pouts k) -> numok fr tl me false (box1 (fst k) (snd k)) R M ->
    exists l m, cx_to cx = Some l /\ aread l M = Ok m /\ am_base m <> 0 /\ am_from m <= fst k /\ am_base m + (fst k - am_from m) * es = toA k.
  Hypothesis H32 : forall k, In k D -> pred k = true -> (length (pins k) <= 32)%nat /\ n k * Z.of_nat (length (pins k)) < 2 ^ 32.
  Hypothesis HO0 : forall k, In k D -> pred k = true -> pouts k = [] -> two (pins k) = true.

  Lemma count_ok k : In k D -> add_count cx (box1 (fst k) (snd k)) = Ok (pcnt k).
  Proof.
    intros Hk. pose proof (Hseg k Hk). unfold pcnt in *. unfold add_count, box_size. rewrite Hdim. cbn [b_to b_from box1 i0 Nat.ltb Nat.leb].
    assert (E : snd k >=? fst k = true) by lia. rewrite E. cbn [cassert obind]. rewrite Z.mod_small by (unfold two64; lia).
    assert (E1 : snd k - fst k >? 0 = true) by lia. assert (E2 : snd k - fst k <? 2 ^ 32 = true) by lia. rewrite E1, E2. reflexivity.
  Qed.

  Lemma get_amap_ok l k m : aread l k = Ok m -> get_amap (Some l) k = Ok (Some m).
  Proof.
    intros H. unfold get_amap. assert (E : k <? Z.of_nat (length l) = true).
    { unfold aread in H. destruct (k <? 0) eqn:E0; [discriminate|]. destruct (nth_error l (Z.to_nat k)) eqn:En; [|discriminate].
      assert (Z.to_nat k < length l)%nat by (apply nth_error_Some; congruence). lia. }
    rewrite E. cbn [cassert]. rewrite H. reflexivity.
  Qed.
  Lemma u32_small z : 0 <= z < 2 ^ 32 -> u32 z = z.
  Proof. intros; apply u32_id; auto. Qed.

  (* ---- sends ---- *)
  Definition gsnd (x : box * Z) : action := mkAct 1 (BufSend (fromA (seg_of (fst x))) (pcnt (seg_of (fst x))) (snd x)).
  Definition grcv (x : box * Z) : action := mkAct 1 (BufRecv (toA (seg_of (fst x))) (pcnt (seg_of (fst x))) (snd x)).

  Lemma in_sends x : In x (tp_send o) -> exists k, In k D /\ sd_box x = box1 (fst k) (snd k) /\ pins k = [me] /\ In (sd_to x) (others me (pouts k)).
  Proof.
    intros Hx. assert (X : In (sd_box x, sd_to x) (flat_map (sg_send fr tl gsize me) D)).
    { rewrite <- (oi_send _ _ _ _ _ _ _ HO). apply in_map_iff. exists x. auto. }
    apply in_flat_map in X. destruct X as (k & Hk & X). exists k. split; auto. unfold sg_send in X. unfold pins.
    destruct (owners gsize fr (fst k)) as [|i [|j l]]; [destruct X| |destruct X].
    destruct (i =? me) eqn:E; [|destruct X]. assert (i = me) by lia. subst i. apply in_map_iff in X. destruct X as (t & X1 & X2).
    injection X1 as X0 X1. split; auto. split; auto. rewrite <- X1. exact X2.
  Qed.
  Lemma in_recvs x : In x (tp_recv o) -> exists k, In k D /\ rc_box x = box1 (fst k) (snd k) /\ In me (pouts k).
  Proof.
    intros Hx. assert (X : In (rc_box x, rc_from x) (flat_map (sg_recv fr tl gsize me) D)).
    { rewrite <- (oi_recv _ _ _ _ _ _ _ HO). apply in_map_iff. exists x. auto. }
    apply in_flat_map in X. destruct X as (k & Hk & X). exists k. split; auto. unfold sg_recv in X.
    destruct (owners gsize fr (fst k)) as [|i [|j l]]; [destruct X| |destruct X].
    destruct (negb (i =? me) && _) eqn:E; [|destruct X]. destruct X as [X|[]]. injection X as X1 X2. split; auto.
    apply andb_prop in E. destruct E as [_ E]. apply Proof_Trans2.memb_in in E. exact E.
  Qed.

  Lemma send_flat x : In x (tp_send o) -> exists a, add_send cx 0 x = Ok a /\
    forall nres, flatten_one cx nres a = Ok ([gsnd (sd_box x, sd_to x)], nres, true).
  Proof.
    intros Hx. destruct (in_sends x Hx) as (k & Hk & Eb & Ei & _).
    assert (Hi : In me (pins k)) by (rewrite Ei; left; auto).
    pose proof (proj1 (Forall_forall _ _) (oi_snum _ _ _ _ _ _ _ HO) x Hx) as HN. cbn beta in HN. unfold numAt in HN. rewrite Eb in HN.
    specialize (HN (Hcov true k Hk Hi)). destruct (HF k _ _ Hk Hi HN) as (l & m & E1 & E2 & E3 & E4 & E5).
    pose proof (Hseg k Hk) as Hs. unfold pcnt in Hs.
    unfold add_send. rewrite Eb, count_ok by auto. cbn [obind]. rewrite add_action_eq by lia. eexists. split; [reflexivity|].
    intros nres. unfold flatten_one. cbn [a_par a_round]. rewrite E1, (get_amap_ok _ _ _ E2), Hdim. cbn [obind]. cbn [b_from b_to box1 i0].
    assert (B1 : fst k - am_from m >=? 0 = true) by lia. assert (B2 : snd k - am_from m >? fst k - am_from m = true) by lia.
    assert (B3 : negb (am_base m =? 0) = true) by lia. rewrite B1, B2, B3. cbn [cassert]. change (3 * 0 + 1) with 1. rewrite add_action_eq by lia. cbn [obind].
    unfold gsnd. cbn [fst snd]. rewrite seg_box. fold es. rewrite E5. unfold pcnt. replace (snd k - am_from m - (fst k - am_from m)) with (snd k - fst k) by lia.
    rewrite u32_small by lia. reflexivity.
  Qed.

  Lemma recv_flat x : In x (tp_recv o) -> exists a, add_recv cx 0 x = Ok a /\
    forall nres, flatten_one cx nres a = Ok ([grcv (rc_box x, rc_from x)], nres, true).
  Proof.
    intros Hx. destruct (in_recvs x Hx) as (k & Hk & Eb & Hi).
    pose proof (proj1 (Forall_forall _ _) (oi_rnum _ _ _ _ _ _ _ HO) x Hx) as HN. cbn beta in HN. unfold numAt in HN. rewrite Eb in HN.
    specialize (HN (Hcov false k Hk Hi)). destruct (HT k _ _ Hk Hi HN) as (l & m & E1 & E2 & E3 & E4 & E5).
    pose proof (Hseg k Hk) as Hs. unfold pcnt in Hs.
    unfold add_recv. rewrite Eb, count_ok by auto. cbn [obind]. rewrite add_action_eq by lia. eexists. split; [reflexivity|].
    intros nres. unfold flatten_one. cbn [a_par a_round]. rewrite E1, (get_amap_ok _ _ _ E2), Hdim. cbn [obind]. cbn [b_from b_to box1 i0].
    assert (B1 : fst k - am_from m >=? 0 = true) by lia. assert (B2 : snd k - am_from m >? fst k - am_from m = true) by lia.
    assert (B3 : negb (am_base m =? 0) = true) by lia. rewrite B1, B2, B3. cbn [cassert]. change (3 * 0 + 1) with 1. rewrite add_action_eq by lia. cbn [obind].
    unfold grcv. cbn [fst snd]. rewrite seg_box. fold es. rewrite E5. unfold pcnt. replace (snd k - am_from m - (fst k - am_from m)) with (snd k - fst k) by lia.
    rewrite u32_small by lia. reflexivity.
  Qed.

  (* ---- reductions ---- *)
  Definition mine k := memb me (pins k) || memb me (pouts k).
  Definition Dr := filter (fun k => pred k && mine k) D.
  Definition fA k := if memb me (pins k) then fromA k else 0.
  Definition tA k := if memb me (pouts k) then toA k else 0.
  Definition gred (x : redTOp) : action :=
    mkAct 1 (GroupReduce (rd_in x) (rd_out x) (fA (seg_of (rd_box x))) (tA (seg_of (rd_box x))) (pcnt (seg_of (rd_box x))) op).
  Definition Link (x : redTOp) (k : Z * Z) : Prop :=
    rd_box x = box1 (fst k) (snd k) /\ rd_redOp x = op /\ cx_group cx (rd_in x) = Ok (pins k) /\ cx_group cx (rd_out x) = Ok (pouts k).

  Lemma grp_group g l : grp gsize (tp_groups o) g = Some l -> cx_group cx g = Ok l.
  Proof.
    unfold grp, cx_group. rewrite Hsize, Hgr. destruct (g =? -1); [unfold zcount; intros H; injection H as <-; auto|].
    destruct (g <? 0) eqn:E0; [discriminate|]. intros H. unfold aread. rewrite E0, H.
    assert (Z.to_nat g < length (tp_groups o))%nat by (apply nth_error_Some; congruence).
    assert (E : g <? Z.of_nat (length (tp_groups o)) = true) by lia. rewrite E. reflexivity.
  Qed.

  Lemma reds_link : Forall2 Link (tp_red o) Dr.
  Proof.
    assert (E : map (res_red gsize (tp_groups o)) (tp_red o) = map (fun k => (box1 (fst k) (snd k), op, Some (pins k), Some (pouts k))) Dr).
    { rewrite (oi_red _ _ _ _ _ _ _ HO). unfold Dr. clear -me. induction D as [|k l IH]; auto.
      assert (E : sg_red fr tl gsize me op k = if pred k && mine k then [(box1 (fst k) (snd k), op, Some (pins k), Some (pouts k))] else []).
      { unfold sg_red, pred, mine. rewrite !memb_two. unfold pins, pouts. destruct (owners gsize fr (fst k)) as [|i [|j l0]]; reflexivity. }
      cbn [flat_map filter]. rewrite IH, E. destruct (pred k && mine k); auto. }
    revert E. generalize (tp_red o). intros l'. generalize Dr. intros l. revert l. induction l' as [|x l' IH]; intros [|k l] E; try discriminate; [constructor|]; cbn [map] in E; unfold res_red in E at 1; injection E as E1 E2 E3 E4 E; constructor.
    - repeat split; auto; apply grp_group; auto.
    - apply IH. auto.
  Qed.

  Lemma in_Dr k : In k Dr -> In k D /\ pred k = true /\ mine k = true.
  Proof. unfold Dr. rewrite filter_In. intros [H1 H2]. apply andb_prop in H2. tauto. Qed.

  Lemma red_flat x : In x (tp_red o) -> exists a, add_red cx 0 x = Ok a /\ forall nres, flatten_one cx nres a = Ok ([gred x], nres, true).
  Proof.
    intros Hx.
    assert (X : exists k, In k Dr /\ Link x k).
    { pose proof reds_link as HL. induction HL as [|y k l l' H1 H2 IH]; [destruct Hx|]. destruct Hx as [->|Hx]; [exists k; split; [left|]; auto|].
      destruct (IH Hx) as (k' & A1 & A2). exists k'. split; [right|]; auto. }
    destruct X as (k & Hk & Eb & Eo & Ei & Eu). apply in_Dr in Hk. destruct Hk as (Hk & Hr & Hm).
    pose proof (proj1 (Forall_forall _ _) (oi_dnum _ _ _ _ _ _ _ HO) x Hx) as HN. cbn beta in HN. unfold numAt in HN. rewrite Eb in HN. destruct HN as [HN1 HN2].
    pose proof (Hseg k Hk) as Hs. unfold pcnt in Hs.
    unfold add_red. rewrite Eb, count_ok by auto. cbn [obind]. rewrite add_action_eq by lia. eexists. split; [reflexivity|].
    intros nres. unfold flatten_one. cbn [a_par a_round]. rewrite Hdim. unfold in_group. rewrite Ei. cbn [obind]. rewrite Hme.
    change (existsb (fun x0 => x0 =? me) (pins k)) with (memb me (pins k)).
    assert (XF : exists fm, (if memb me (pins k)
       then match cx_from cx with None => Abort | Some l0 => do om <- get_amap (Some l0) (rd_inMapNo x);
             match om with Some m => cassert (negb (am_base m =? 0)) (Ok (Some m)) | None => Abort end end
       else Ok None) = Ok fm /\
       (match fm with None => Ok 0 | Some m => cassert (fst k >=? am_from m) (Ok (am_base m + (fst k - am_from m) * cx_es cx)) end = Ok (fA k))).
    { unfold fA. destruct (memb me (pins k)) eqn:Em; [|exists None; auto]. apply memb_in in Em.
      destruct (HF k _ _ Hk Em (HN1 (Hcov true k Hk Em))) as (l & m & E1 & E2 & E3 & E4 & E5).
      exists (Some m). rewrite E1, (get_amap_ok _ _ _ E2). cbn [obind]. assert (B : negb (am_base m =? 0) = true) by lia. rewrite B. split; auto.
      assert (B2 : fst k >=? am_from m = true) by lia. rewrite B2. cbn [cassert]. fold es. rewrite E5. auto. }
    destruct XF as (fm & F1 & F2).
    assert (XT : exists fm, (if memb me (pouts k)
       then match cx_to cx with None => Abort | Some l0 => do om <- get_amap (Some l0) (rd_outMapNo x);
             match om with Some m => cassert (negb (am_base m =? 0)) (Ok (Some m)) | None => Abort end end
       else Ok None) = Ok fm /\
       (match fm with None => Ok 0 | Some m => cassert (fst k >=? am_from m) (Ok (am_base m + (fst k - am_from m) * cx_es cx)) end = Ok (tA k))).
    { unfold tA. destruct (memb me (pouts k)) eqn:Em; [|exists None; auto]. apply memb_in in Em.
      destruct (HT k _ _ Hk Em (HN2 (Hcov false k Hk Em))) as (l & m & E1 & E2 & E3 & E4 & E5).
      exists (Some m). rewrite E1, (get_amap_ok _ _ _ E2). cbn [obind]. assert (B : negb (am_base m =? 0) = true) by lia. rewrite B. split; auto.
      assert (B2 : fst k >=? am_from m = true) by lia. rewrite B2. cbn [cassert]. fold es. rewrite E5. auto. }
    destruct XT as (tm & T1 & T2).
    rewrite F1. cbn [obind]. rewrite Eu. cbn [obind]. change (existsb (fun x0 => x0 =? me) (pouts k)) with (memb me (pouts k)). rewrite T1. cbn [obind b_from b_to box1 i0].
    assert (B2 : snd k >? fst k = true) by lia. rewrite B2. cbn [cassert]. rewrite F2. cbn [obind]. rewrite T2. cbn [obind].
    rewrite u32_small by lia. assert (B1 : snd k - fst k >? 0 = true) by lia. rewrite B1. cbn [cassert]. change (3 * 0 + 1) with 1. rewrite add_action_eq by lia. cbn [obind].
    unfold gred. rewrite Eb, seg_box, Eo. reflexivity.
  Qed.

  Definition flat_acts : list action :=
    map gred (tp_red o) ++ map gsnd (map (fun x => (sd_box x, sd_to x)) (tp_send o)) ++ map grcv (map (fun x => (rc_box x, rc_from x)) (tp_recv o)).

  Lemma flat_ok : exists a c, split_texec cx o = Ok a /\ flatten cx (mkSeq a 0 [] 0) = Ok (c, mkSeq flat_acts 0 [] 0).
  Proof.
    destruct (texec_flat cx (add_red cx 0) gred (tp_red o) red_flat) as (a1 & E1 & F1).
    destruct (texec_flat cx (add_send cx 0) (fun x => gsnd (sd_box x, sd_to x)) (tp_send o) send_flat) as (a2 & E2 & F2).
    destruct (texec_flat cx (add_recv cx 0) (fun x => grcv (rc_box x, rc_from x)) (tp_recv o) recv_flat) as (a3 & E3 & F3).
    exists (a1 ++ a2 ++ a3), (negb (isnil (tp_red o)) || (negb (isnil (tp_send o)) || negb (isnil (tp_recv o)))). unfold split_texec. rewrite E1. cbn [obind]. rewrite E2. cbn [obind]. rewrite E3. cbn [obind]. split; [reflexivity|].
    unfold flatten. cbn [as_nres as_acts as_bufs as_nce].
    rewrite (flatten_app _ _ _ _ _ _ _ _ _ _ (F1 0) (flatten_app _ _ _ _ _ _ _ _ _ _ (F2 0) (F3 0))). cbn [obind].
    unfold flat_acts. rewrite !map_map.
    destruct (negb (isnil (tp_red o)) || (negb (isnil (tp_send o)) || negb (isnil (tp_recv o)))) eqn:En; [reflexivity|].
    destruct (tp_red o), (tp_send o), (tp_recv o); try discriminate. cbn in E1, E2, E3. injection E1 as <-. injection E2 as <-. injection E3 as <-. reflexivity.
  Qed.

  (* ---- splitting ---- *)
  Definition rsize k := resize cx (pcnt k) (pins k) (pouts k).

  Lemma reds_split : forall ops ks, Forall2 Link ops ks -> incl ks Dr -> NoDup ks -> forall nres,
    exists acts nres' (idf : Z * Z -> Z), split_loop cx nres (map gred ops) = Ok (acts, nres') /\ nres <= nres' /\
      map d (filter (in_rd 3) acts) = flat_map (fun k => redA cx (pcnt k) (fA k) (pins k) (pouts k) ++ redV cx (pcnt k) (place (idf k)) (pins k) (pouts k)) ks /\
      map d (filter (in_rd 4) acts) = flat_map (fun k => redL cx T (pcnt k) op (fA k) (tA k) (place (idf k)) (pins k) (pouts k)) ks /\
      map d (filter (in_rd 5) acts) = flat_map (fun k => redC1 cx (pcnt k) (tA k) (pins k) (pouts k) ++ redC2 cx (pcnt k) (tA k) (pins k) (pouts k)) ks /\
      (forall a, In a acts -> a_round a = 0 \/ 3 <= a_round a <= 5) /\
      (forall k, In k ks -> rsize k > 0 -> In (mkAct 0 (BufReserve (rsize k) (idf k) 0)) acts /\ nres + 100 <= idf k < nres' + 100) /\
      (forall k k', In k ks -> In k' ks -> k <> k' -> rsize k > 0 -> rsize k' > 0 -> idf k <> idf k') /\
      (forall a, In a acts -> a_round a = 0 -> exists s i, a_par a = BufReserve s i 0).
  Proof.
    induction 1 as [|x k ops ks HL HLs IH]; intros Hin HN nres.
    - exists [], nres, (fun _ => 0). cbn. repeat split; auto; try lia; try contradiction.
    - assert (Hk : In k D /\ pred k = true /\ mine k = true) by (apply in_Dr, Hin; left; auto). destruct Hk as (Hk & Hr & Hm).
      destruct HL as (Eb & Eo & Ei & Eu). destruct (H32 k Hk Hr) as [S1 S2]. pose proof (Hseg k Hk) as Hs.
      assert (n0 : 0 < pcnt k * cx_es cx) by (fold es; nia).
      assert (NI : NoDup (pins k)) by (apply sset_NoDup, owners_sset). assert (NO : NoDup (pouts k)) by (apply sset_NoDup, owners_sset).
      destruct (split_parts cx place T oth (pcnt k) op n0 nres 1 (rd_in x) (rd_out x) (fA k) (tA k) (pins k) (pouts k) Ei Eu NI NO S1 S2 ltac:(lia) ltac:(lia) (HO0 k Hk Hr))
        as (acts & nr & E & P3 & P4 & P5 & PR & P0 & Pn). change (3 * 1) with 3 in *. change (3 + 1) with 4 in *. change (3 + 2) with 5 in *. fold d in P3, P4, P5.
      inversion HN as [|? ? Hnk HN']; subst.
      destruct (IH ltac:(intros y Hy; apply Hin; right; auto) HN' (nres + (if resize cx (pcnt k) (pins k) (pouts k) >? 0 then 1 else 0)))
        as (acts' & nr' & idf & E' & Q0 & Q3 & Q4 & Q5 & QR & QS & QI & QZ).
      fold (rsize k) in *.
      pose (idf' := fun j : Z * Z => if (fst j =? fst k) && (snd j =? snd k) then nres + 100 else idf j).
      assert (Ek : idf' k = nres + 100) by (unfold idf'; rewrite !Z.eqb_refl; auto).
      assert (En : forall j, j <> k -> idf' j = idf j).
      { intros j Hj. unfold idf'. destruct ((fst j =? fst k) && (snd j =? snd k)) eqn:Q; auto. exfalso. apply Hj. destruct j, k; cbn [fst snd] in Q. f_equal; lia. }
      assert (Hnj : forall j, In j ks -> j <> k) by (intros j Hj ->; auto).
      exists (acts ++ acts'), nr', idf'. split.
      { cbn [map split_loop]. replace (gred x) with (mkAct 1 (GroupReduce (rd_in x) (rd_out x) (fA k) (tA k) (pcnt k) op)) by (unfold gred; rewrite Eb, seg_box; auto).
        rewrite E. cbn [obind fst snd]. rewrite E'. reflexivity. }
      split; [destruct (rsize k >? 0); lia|].
      rewrite !filter_app, !map_app, P3, P4, P5, Q3, Q4, Q5. cbn [flat_map]. rewrite Ek.
      split; [f_equal; apply flat_map_ext_in'; intros j Hj; rewrite En; auto|].
      split; [f_equal; apply flat_map_ext_in'; intros j Hj; rewrite En; auto|].
      split; [reflexivity|].
      split; [intros a Ha; apply in_app_or in Ha; destruct Ha as [Ha|Ha]; [apply PR in Ha|apply QR in Ha]; lia|].
      split.
      { intros j [<-|Hj] Hz.
        - rewrite Ek. split.
          + apply in_or_app. left. assert (B : rsize k >? 0 = true) by lia. rewrite B in P0.
            assert (X : In (mkAct 0 (BufReserve (rsize k) (nres + 100) 0)) (filter (in_rd 0) acts)) by (rewrite P0; left; auto). apply filter_In in X. tauto.
          + assert (B : rsize k >? 0 = true) by lia. rewrite B in Q0. lia.
        - rewrite En by auto. destruct (QS j Hj Hz) as [A1 A2]. split; [apply in_or_app; auto|]. destruct (rsize k >? 0); lia. }
      split.
      { intros j j' [<-|Hj] [<-|Hj'] Hne Z1 Z2; [congruence| | |].
        - rewrite Ek, En by auto. destruct (QS j' Hj' Z2) as [_ A2]. assert (B : rsize k >? 0 = true) by lia. rewrite B in A2. lia.
        - rewrite Ek, En by auto. destruct (QS j Hj Z1) as [_ A2]. assert (B : rsize k >? 0 = true) by lia. rewrite B in A2. lia.
        - rewrite !En by auto. auto. }
      intros a Ha Hz. apply in_app_or in Ha. destruct Ha as [Ha|Ha]; [|apply QZ; auto].
      assert (X : In a (filter (in_rd 0) acts)) by (apply filter_In; unfold in_rd; split; auto; lia). rewrite P0 in X.
      destruct (rsize k >? 0); [destruct X as [<-|[]]; cbn; eauto|destruct X].
  Qed.

  (* ---- the whole program ---- *)
  Lemma flat_filter {A B} (P : A -> bool) (f g : A -> list B) l : (forall k, In k l -> (if P k then f k else []) = g k) -> flat_map f (filter P l) = flat_map g l.
  Proof.
    induction l as [|k l IH]; intros H; auto. cbn [filter flat_map]. rewrite <- (H k) by (left; auto).
    destruct (P k); cbn [flat_map]; rewrite IH; auto; intros; apply H; right; auto.
  Qed.

  Lemma program_0345 acts : (forall a, In a acts -> a_round a = 0 \/ 3 <= a_round a <= 5) ->
    program d acts = map d (filter (in_rd 0) acts) ++ map d (filter (in_rd 3) acts) ++ map d (filter (in_rd 4) acts) ++ map d (filter (in_rd 5) acts).
  Proof.
    intros H. unfold program. rewrite <- !map_app. f_equal.
    assert (E : map Z.of_nat (seq 0 255) = [0; 1; 2; 3; 4; 5] ++ map Z.of_nat (seq 6 249)) by reflexivity. rewrite E, flat_map_app.
    rewrite (flat_map_nil _ (map Z.of_nat (seq 6 249))).
    2:{ intros k Hk. apply in_map_iff in Hk. destruct Hk as (j & <- & Hj). apply in_seq in Hj. apply filter_none. intros a Ha. apply H in Ha. unfold in_rd. lia. }
    cbn [flat_map]. rewrite (filter_none (in_rd 1)), (filter_none (in_rd 2)) by (intros a Ha; apply H in Ha; unfold in_rd; lia).
    rewrite !app_nil_r. reflexivity.
  Qed.
  Lemma program_1 acts : (forall a, In a acts -> a_round a = 1) -> program d acts = map d acts.
  Proof.
    intros H. unfold program. f_equal.
    assert (E : map Z.of_nat (seq 0 255) = [0; 1] ++ map Z.of_nat (seq 2 253)) by reflexivity. rewrite E, flat_map_app.
    rewrite (flat_map_nil _ (map Z.of_nat (seq 2 253))).
    2:{ intros k Hk. apply in_map_iff in Hk. destruct Hk as (j & <- & Hj). apply in_seq in Hj. apply filter_none. intros a Ha. apply H in Ha. unfold in_rd. lia. }
    cbn [flat_map]. rewrite (filter_none (in_rd 0)), (filter_all (in_rd 1)) by (intros a Ha; apply H in Ha; unfold in_rd; lia).
    rewrite !app_nil_r. reflexivity.
  Qed.

  Definition prog (idf : Z * Z -> Z) : list instr :=
    pcode (Z * Z) (fun _ => cx) T op pcnt pins pouts (fun k _ => fA k) (fun k _ => tA k) (fun k _ => place (idf k)) D me.

  Lemma sends_code : map d (map gsnd (map (fun x => (sd_box x, sd_to x)) (tp_send o))) =
    flat_map (fun k => pcS (Z * Z) (fun _ => cx) pcnt pins pouts (fun k _ => fA k) k me) D.
  Proof.
    rewrite (oi_send _ _ _ _ _ _ _ HO), map_map, map_flat_map. apply flat_map_ext_in'. intros k Hk. unfold sg_send, pcS. fold (pins k) (pouts k).
    destruct (pins k) as [|i [|j l]] eqn:Ei; auto. destruct (i =? me) eqn:E; auto. rewrite map_map. unfold others.
    apply map_ext. intros t. unfold gsnd. cbn [fst snd]. rewrite seg_box. unfold fA. rewrite Ei. assert (B : memb me [i] = true) by (apply memb_in; left; lia). rewrite B. reflexivity.
  Qed.
  Lemma recvs_code : map d (map grcv (map (fun x => (rc_box x, rc_from x)) (tp_recv o))) =
    flat_map (fun k => pcR (Z * Z) (fun _ => cx) pcnt pins pouts (fun k _ => tA k) k me) D.
  Proof.
    rewrite (oi_recv _ _ _ _ _ _ _ HO), map_map, map_flat_map. apply flat_map_ext_in'. intros k Hk. unfold sg_recv, pcR. fold (pins k) (pouts k).
    destruct (pins k) as [|i [|j l]] eqn:Ei; auto. rewrite memb_two. destruct (negb (i =? me) && memb me (pouts k)) eqn:E; auto.
    cbn [map]. unfold grcv. cbn [fst snd]. rewrite seg_box. unfold tA. apply andb_prop in E. destruct E as [_ E]. rewrite E. reflexivity.
  Qed.

  Lemma split_others l : (forall a, In a l -> a_round a = 1 /\ is_groupReduce a = false /\ a_par a <> Nop) -> forall nres,
    split_loop cx nres l = Ok (map (fun a => mkAct 4 (a_par a)) l, nres).
  Proof.
    induction l as [|a l IH]; intros H nres; auto. destruct (H a) as (R & G & Nn); [left; auto|]. cbn [split_loop map].
    assert (E : split_one cx nres a = Ok ([mkAct 4 (a_par a)], nres)).
    { unfold split_one, aseq_add. rewrite R. unfold is_groupReduce in G. change (3 * 1 + 1) with 4. change (4 <? 0) with false. cbn iota.
      destruct (a_par a); try discriminate; try congruence; rewrite add_action_eq by lia; reflexivity. }
    rewrite E. cbn [obind fst snd]. rewrite IH by (intros; apply H; right; auto). reflexivity.
  Qed.

  (* what is known of the buffers *)
  Definition Reserved (acts : list action) (idf : Z * Z -> Z) : Prop :=
    (forall k, In k D -> pred k = true -> rsize k > 0 -> In (mkAct 0 (BufReserve (rsize k) (idf k) 0)) acts) /\
    (forall k k', In k D -> In k' D -> pred k = true -> pred k' = true -> k <> k' -> rsize k > 0 -> rsize k' > 0 -> idf k <> idf k').

  Lemma size_mine k : In k D -> pred k = true -> rsize k > 0 -> mine k = true.
  Proof.
    intros Hk Hr H. unfold rsize, resize in H. destruct (does (pins k) (pouts k) (cx_me cx)) eqn:E; [|lia]. rewrite Hme in E. unfold does in E. unfold mine.
    destruct (two (pins k)) eqn:E2; [rewrite E; apply orb_true_r|].
    destruct (pouts k) as [|q l] eqn:Eo; [rewrite (HO0 k Hk Hr Eo) in E2; discriminate|]. unfold root in E. cbn [hd] in E.
    assert (B : memb me (q :: l) = true) by (apply memb_in; left; lia). rewrite B. apply orb_true_r.
  Qed.

  Lemma den_gbuf a k : d (mkAct k (a_par a)) = d a.
  Proof. destruct a as [r p]. reflexivity. Qed.

  Lemma plan_ok : exists s idf u, plan cx o = Ok s /\ program d (as_acts s) = repeat skip u ++ prog idf /\ Reserved (as_acts s) idf.
  Proof.
    destruct flat_ok as (a & c & E1 & E2). unfold plan. rewrite E1. cbn [obind]. rewrite E2. cbn [obind snd].
    set (ms := map gsnd (map (fun x => (sd_box x, sd_to x)) (tp_send o)) ++ map grcv (map (fun x => (rc_box x, rc_from x)) (tp_recv o))).
    assert (Hms : forall a, In a ms -> a_round a = 1 /\ is_groupReduce a = false /\ a_par a <> Nop).
    { intros b Hb. apply in_app_or in Hb. destruct Hb as [Hb|Hb]; apply in_map_iff in Hb; destruct Hb as (x & <- & _); cbn; repeat split; discriminate. }
    assert (Cms : map d ms = flat_map (fun k => pcS (Z * Z) (fun _ => cx) pcnt pins pouts (fun k _ => fA k) k me) D ++
                             flat_map (fun k => pcR (Z * Z) (fun _ => cx) pcnt pins pouts (fun k _ => tA k) k me) D).
    { unfold ms. rewrite map_app, sends_code, recvs_code. auto. }
    unfold split_reduce. cbn [as_acts as_nres as_bufs as_nce]. unfold flat_acts. fold ms. rewrite existsb_app.
    assert (Ex : existsb is_groupReduce ms = false).
    { destruct (existsb is_groupReduce ms) eqn:E; auto. apply existsb_exists in E. destruct E as (b & B1 & B2). apply Hms in B1. destruct B1 as (_ & B1 & _). congruence. }
    rewrite Ex, orb_false_r. pose proof reds_link as HL.
    (* the parts of a segment *)
    assert (PA : forall idf k, In k D -> (if pred k && mine k then redA cx (pcnt k) (fA k) (pins k) (pouts k) ++ redV cx (pcnt k) (place (idf k)) (pins k) (pouts k) else []) =
      pcA (Z * Z) (fun _ => cx) pcnt pins pouts (fun k _ => fA k) k me ++ pcV (Z * Z) (fun _ => cx) pcnt pins pouts (fun k _ => place (idf k)) k me).
    { intros idf k Hk. unfold pcA, pcV, redA, redV. rewrite Hme. fold (pred k). destruct (pred k) eqn:Hr; cbn [andb]; auto. destruct (mine k) eqn:Hm; auto.
      unfold mine in Hm. apply orb_false_iff in Hm. destruct Hm as [M1 M2]. rewrite M1. unfold does. rewrite M2. destruct (two (pins k)) eqn:E2'; auto.
      destruct (pouts k) as [|q l] eqn:Eo; [rewrite (HO0 k Hk Hr Eo) in E2'; discriminate|]. unfold root. cbn [hd].
      apply memb_not in M2. assert (B : me =? q = false) by (destruct (me =? q) eqn:B; auto; exfalso; apply M2; left; lia). rewrite B. auto. }
    assert (PL : forall idf k, In k D -> (if pred k && mine k then redL cx T (pcnt k) op (fA k) (tA k) (place (idf k)) (pins k) (pouts k) else []) =
      pcL (Z * Z) (fun _ => cx) T op pcnt pins pouts (fun k _ => fA k) (fun k _ => tA k) (fun k _ => place (idf k)) k me).
    { intros idf k Hk. unfold pcL, redL. rewrite Hme. fold (pred k). destruct (pred k) eqn:Hr; cbn [andb]; auto. destruct (mine k) eqn:Hm; auto.
      unfold mine in Hm. apply orb_false_iff in Hm. destruct Hm as [M1 M2]. unfold does. rewrite M2. destruct (two (pins k)) eqn:E2'; auto.
      destruct (pouts k) as [|q l] eqn:Eo; [rewrite (HO0 k Hk Hr Eo) in E2'; discriminate|]. unfold root. cbn [hd].
      apply memb_not in M2. assert (B : me =? q = false) by (destruct (me =? q) eqn:B; auto; exfalso; apply M2; left; lia). rewrite B. auto. }
    assert (PC : forall k, In k D -> (if pred k && mine k then redC1 cx (pcnt k) (tA k) (pins k) (pouts k) ++ redC2 cx (pcnt k) (tA k) (pins k) (pouts k) else []) =
      pcC1 (Z * Z) (fun _ => cx) pcnt pins pouts (fun k _ => tA k) k me ++ pcC2 (Z * Z) (fun _ => cx) pcnt pins pouts (fun k _ => tA k) k me).
    { intros k Hk. unfold pcC1, pcC2, redC1, redC2. rewrite Hme. fold (pred k). destruct (pred k) eqn:Hr; cbn [andb]; auto. destruct (mine k) eqn:Hm; auto.
      unfold mine in Hm. apply orb_false_iff in Hm. destruct Hm as [M1 M2]. rewrite M2, !andb_false_r. destruct (two (pins k)) eqn:E2'; auto.
      destruct (pouts k) as [|q l] eqn:Eo; [rewrite (HO0 k Hk Hr Eo) in E2'; discriminate|]. unfold root. cbn [hd negb andb].
      apply memb_not in M2. assert (B : me =? q = false) by (destruct (me =? q) eqn:B; auto; exfalso; apply M2; left; lia). rewrite B. auto. }
    destruct (existsb is_groupReduce (map gred (tp_red o))) eqn:Er; cbn [negb].
    - destruct (reds_split (tp_red o) Dr HL (incl_refl _) (NoDup_filter _ ND) 0) as (acts & nr & idf & Es & _ & P3 & P4 & P5 & PR & PS & PI & PZ).
      rewrite (split_app _ _ _ _ _ _ _ _ Es (split_others ms Hms nr)). cbn [obind fst snd].
      eexists. exists idf, (length (filter (in_rd 0) acts)). split; [reflexivity|]. cbn [as_acts].
      assert (H4 : forall a, In a (map (fun a => mkAct 4 (a_par a)) ms) -> a_round a = 4) by (intros b Hb; apply in_map_iff in Hb; destruct Hb as (x & <- & _); reflexivity).
      split.
      + rewrite program_0345.
        2:{ intros b Hb. apply in_app_or in Hb. destruct Hb as [Hb|Hb]; [apply PR in Hb|apply H4 in Hb]; lia. }
        rewrite !filter_app, (filter_rd0 0 4 (map _ ms)), (filter_rd0 3 4 (map _ ms)), (filter_rd 4 (map _ ms)), (filter_rd0 5 4 (map _ ms)), !app_nil_r by (auto; lia).
        rewrite map_app, P3, P4, P5.
        assert (E0 : map d (filter (in_rd 0) acts) = repeat skip (length (filter (in_rd 0) acts))).
        { assert (X : forall b, In b (filter (in_rd 0) acts) -> d b = skip).
          { intros b Hb. apply filter_In in Hb. destruct Hb as [B1 B2]. unfold in_rd in B2. destruct (PZ b B1 ltac:(lia)) as (sz & i & Ep). destruct b as [r q]. cbn [a_par] in Ep. subst q. reflexivity. }
          revert X. generalize (filter (in_rd 0) acts). induction l as [|b l IH]; intros X; auto. cbn [map length repeat]. rewrite X by (left; auto). f_equal. apply IH. intros; apply X; right; auto. }
        rewrite E0. f_equal. unfold prog, pcode. unfold Dr.
        rewrite (flat_filter _ _ _ D (PA idf)), (flat_filter _ _ _ D (PL idf)), (flat_filter _ _ _ D PC).
        rewrite map_map. rewrite (map_ext _ _ (fun a => den_gbuf a 4)), Cms. reflexivity.
      + split.
        * intros k Hk Hr Hz. apply in_or_app. left. apply PS; auto. unfold Dr. apply filter_In. rewrite Hr, size_mine; auto.
        * intros k k' Hk Hk' Hr Hr' Hne Z1 Z2. apply PI; auto; unfold Dr; apply filter_In; rewrite ?Hr, ?Hr', size_mine; auto.
    - assert (Hn : tp_red o = []).
      { destruct (tp_red o) as [|x l]; auto. cbn in Er. discriminate. }
      rewrite Hn in HL. assert (Hd : Dr = []) by (revert HL; destruct Dr; intros HL; [auto|inversion HL]). clear HL.
      assert (HD : forall k, In k D -> pred k && mine k = false).
      { intros k Hk. destruct (pred k && mine k) eqn:E; auto. assert (X : In k Dr) by (apply filter_In; auto). rewrite Hd in X. destruct X. }
      rewrite Hn. cbn [map app obind snd]. eexists. exists (fun _ => 0), 0%nat. split; [reflexivity|]. cbn [as_acts repeat app].
      split.
      + rewrite program_1 by (intros b Hb; apply Hms in Hb; tauto). rewrite Cms. unfold prog, pcode.
        rewrite (flat_map_nil (fun k => pcA _ _ _ _ _ _ k me ++ _) D) by (intros k Hk; rewrite <- (PA (fun _ => 0) k Hk), HD; auto).
        rewrite (flat_map_nil (fun k => pcL _ _ _ _ _ _ _ _ _ _ k me) D) by (intros k Hk; rewrite <- (PL (fun _ => 0) k Hk), HD; auto).
        rewrite (flat_map_nil (fun k => pcC1 _ _ _ _ _ _ k me ++ _) D) by (intros k Hk; rewrite <- (PC k Hk), HD; auto).
        rewrite app_nil_r. reflexivity.
      + split.
        * intros k Hk Hr Hz. pose proof (HD k Hk) as X. rewrite Hr, size_mine in X; auto. discriminate.
        * intros k k' Hk Hk' Hr Hr' Hne Z1 Z2. pose proof (HD k Hk) as X. rewrite Hr, size_mine in X; auto. discriminate.
  Qed.
End Plan.
