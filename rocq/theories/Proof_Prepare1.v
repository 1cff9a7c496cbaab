(* A group of processes whose messages are in a common order: from what each process does when
   given all its input to executions of the group. *)
From Coq Require Import ZArith List Bool Lia ZifyBool ZifyNat Sorted.
From Verif Require Import Base Model_Space Model_Mem Model_Transition Model_Action Model_ActionTrans Model_ActionExec Model_Net Spec_Net.
From Verif Require Import Proof_Net.
Import ListNotations.
Open Scope Z_scope.

Definition inN (N q : Z) : bool := (0 <=? q) && (q <? N).
(* what process p still gets, if W q p is what process q still sends to p *)
Definition ext (N : Z) (W : Z -> Z -> list Z) (p : Z) (ch : chan) : list Z :=
  match ch with Peer q => if inN N q then W q p else [] | _ => [] end.
Definition given (N : Z) (W : Z -> Z -> list Z) (p : Z) (s : pst) : pst := mkP (p_mem s) (fun ch => p_in s ch ++ ext N W p ch) (p_out s).

Lemma exec_is_out l q : forall s s', exec_is l s = Some s' -> exists w, p_out s' (Peer q) = p_out s (Peer q) ++ w.
Proof.
  induction l as [|i l IH]; intros s s' H.
  - injection H as <-. exists []. rewrite app_nil_r. auto.
  - cbn [exec_is] in H. destruct (exec_i i s) as [s1|] eqn:E; [|discriminate]. destruct (IH _ _ H) as (w & Hw).
    rewrite Hw, (exec_i_out _ _ _ q E), <- app_assoc. eauto.
Qed.
Lemma exec_is_quiet l q : (forall i, In i l -> i_out i <> Some (Peer q)) -> forall s s', exec_is l s = Some s' -> p_out s' (Peer q) = p_out s (Peer q).
Proof.
  induction l as [|i l IH]; intros Hn s s' H.
  - injection H as <-. auto.
  - cbn [exec_is] in H. destruct (exec_i i s) as [s1|] eqn:E; [|discriminate]. rewrite (IH (fun i H => Hn i (or_intror H)) _ _ H), (exec_i_out _ _ _ q E).
    rewrite noself_sent by (apply Hn; left; auto). apply app_nil_r.
Qed.

(* the state after a step *)
Lemma nexec_inv r x y : nexec r x = Some y -> exists i l s', pr_code (x r) = i :: l /\ exec_i i (pr_st (x r)) = Some s' /\
  pr_code (y r) = l /\ (forall q, q <> r -> pr_code (y q) = pr_code (x q)) /\
  (forall q, p_mem (pr_st (y q)) = if q =? r then p_mem s' else p_mem (pr_st (x q))) /\
  (forall q ch, p_out (pr_st (y q)) ch = if q =? r then p_out s' ch else p_out (pr_st (x q)) ch) /\
  (forall q ch, p_in (pr_st (y q)) ch = (if q =? r then p_in s' ch else p_in (pr_st (x q)) ch) ++ (if on ch (Some (Peer r)) then sent i (p_mem (pr_st (x r))) q else [])).
Proof.
  unfold nexec. destruct (pr_code (x r)) as [|i l] eqn:Ec; [discriminate|]. destruct (exec_i i (pr_st (x r))) as [s'|] eqn:Ei; [|discriminate]. intros H. injection H as <-.
  exists i, l, s'. split; auto. split; auto. unfold deliver, upd. cbn [pr_code pr_st p_mem p_in p_out]. rewrite Z.eqb_refl. cbn [pr_code].
  split; auto. split; [intros q Hq; replace (q =? r) with false by lia; auto|].
  split; [intros q; destruct (q =? r); auto|]. split; [intros q ch; destruct (q =? r); auto|].
  intros q ch. destruct (q =? r); cbn [pr_st]; destruct (on ch _); rewrite ?app_nil_r; auto.
Qed.

Lemma ext_step N W W' p r (bs : list Z) ch : inN N r = true -> (forall q, q <> r -> W q p = W' q p) -> W r p = bs ++ W' r p ->
  ext N W p ch = (if on ch (Some (Peer r)) then bs else []) ++ ext N W' p ch.
Proof.
  intros Hr H1 H2. destruct ch as [q| |]; auto. rewrite on_peer. unfold ext. destruct (q =? r) eqn:E.
  - assert (q = r) by lia. subst q. rewrite Hr. auto.
  - rewrite H1 by lia. reflexivity.
Qed.

(* a process within a group does what it does on its own, with all its input *)
Lemma run_local N : forall sc x z, Sched N sc -> nrun sc x = Some z -> AllDone N z -> exists W,
  (forall q p, 0 <= q < N -> p_out (pr_st (z q)) (Peer p) = p_out (pr_st (x q)) (Peer p) ++ W q p) /\
  forall p, 0 <= p < N -> exists s, exec_is (pr_code (x p)) (given N W p (pr_st (x p))) = Some s /\ peq s (pr_st (z p)).
Proof.
  induction sc as [|r sc IH]; intros x z S H D.
  - injection H as <-. exists (fun _ _ => []). split; [intros; rewrite app_nil_r; auto|]. intros p Hp. rewrite (D p Hp). eexists. split; [reflexivity|].
    constructor; cbn [given p_mem p_in p_out]; auto. intros ch. unfold ext. destruct ch; rewrite ?app_nil_r; auto. destruct (inN N p0); rewrite app_nil_r; auto.
  - cbn [nrun] in H. destruct (nexec r x) as [y|] eqn:E; [|discriminate]. assert (Hr : 0 <= r < N) by (apply S; left; auto). assert (HrN : inN N r = true) by (unfold inN; lia).
    destruct (IH y z (fun q Hq => S q (or_intror Hq)) H D) as (W' & A & B).
    destruct (nexec_inv _ _ _ E) as (i & l & s' & Ec & Ei & Cr & Co & Mm & Oo & Ii).
    set (bs := sent i (p_mem (pr_st (x r)))) in *.
    exists (fun q p => if q =? r then bs p ++ W' r p else W' q p). split.
    + intros q p Hq. rewrite (A q p Hq), Oo. destruct (q =? r) eqn:Eq; auto. assert (q = r) by lia. subst q. rewrite (exec_i_out _ _ _ p Ei). fold bs. rewrite <- app_assoc. auto.
    + intros p Hp. destruct (B p Hp) as (s & Es & Ps).
      set (W := fun q p => if q =? r then bs p ++ W' r p else W' q p).
      assert (X : forall ch, ext N W p ch = (if on ch (Some (Peer r)) then bs p else []) ++ ext N W' p ch).
      { intros ch. apply ext_step; auto; unfold W; [intros q Hq; replace (q =? r) with false by lia; auto|rewrite Z.eqb_refl; auto]. }
      destruct (p =? r) eqn:Ep.
      * assert (p = r) by lia. subst p. rewrite Ec. cbn [exec_is]. destruct (exec_i_more _ _ _ (ext N W r) Ei) as (s2 & E2 & M2 & O2 & I2). unfold given. rewrite E2.
        rewrite Cr in Es. destruct (exec_is_peq l (given N W' r (pr_st (y r))) s2 s) as (t & Et & Pt); auto.
        { constructor; cbn [given p_mem p_in p_out]; [rewrite Mm, Z.eqb_refl; auto| |intros ch; rewrite Oo, Z.eqb_refl; auto].
          intros ch. rewrite I2, Ii, Z.eqb_refl, X, app_assoc. auto. }
        exists t. split; auto. eapply peq_trans; [apply peq_sym; exact Pt|auto].
      * rewrite Co in Es by lia. destruct (exec_is_peq (pr_code (x p)) (given N W' p (pr_st (y p))) (given N W p (pr_st (x p))) s) as (t & Et & Pt); auto.
        { constructor; cbn [given p_mem p_in p_out]; [rewrite Mm, Ep; auto| |intros ch; rewrite Oo, Ep; auto]. intros ch. rewrite Ii, Ep, X, app_assoc. auto. }
        exists t. split; auto. eapply peq_trans; [apply peq_sym; exact Pt|auto].
Qed.

(* ---- messages in a common order ---- *)

(* messages to higher ranks come before messages to lower ranks, each by sender, then receiver *)
Definition mkey (N s t : Z) : Z := (if s <? t then 0 else N * N) + s * N + t.
Lemma mkey_inj N s t s' t' : 0 <= s < N -> 0 <= t < N -> 0 <= s' < N -> 0 <= t' < N -> mkey N s t = mkey N s' t' -> s = s' /\ t = t'.
Proof.
  unfold mkey. intros Hs Ht Hs' Ht' H. assert (U : forall a b, 0 <= a < N -> 0 <= b < N -> 0 <= a * N + b < N * N) by (intros; nia).
  pose proof (U s t Hs Ht). pose proof (U s' t' Hs' Ht').
  assert (E : s * N + t = s' * N + t') by (destruct (s <? t), (s' <? t'); lia).
  assert (s = s'). { rewrite (Z.div_unique (s * N + t) N s t) by lia. symmetry. apply (Z.div_unique _ N s' t'); lia. }
  subst. split; auto. lia.
Qed.
Definition ikey (N p : Z) (i : instr) : option Z :=
  match i_in i, i_out i with
  | Some (Peer q), None => Some (mkey N q p)
  | None, Some (Peer q) => Some (mkey N p q)
  | _, _ => None
  end.
(* an instruction of process p: a receive from or a send to another process, or neither *)
Definition iwf (N p : Z) (i : instr) : Prop :=
  match i_in i, i_out i with
  | Some (Peer q), None | None, Some (Peer q) => 0 <= q < N /\ q <> p
  | None, None => True
  | _, _ => False
  end.
Definition iord (N p : Z) (i j : instr) : Prop := forall k k', ikey N p i = Some k -> ikey N p j = Some k' -> k <= k'.

Lemma least (f : Z -> Z) l : l <> [] -> exists m, In m l /\ forall x, In x l -> f m <= f x.
Proof.
  induction l as [|a l IH]; [congruence|]. intros _. destruct l as [|b l]; [exists a; split; [left; auto|intros x [<-|[]]; lia]|].
  destruct IH as (m & Hm & Hl); [congruence|]. destruct (Z_le_gt_dec (f a) (f m)).
  - exists a. split; [left; auto|]. intros x [<-|Hx]; [lia|]. specialize (Hl x Hx). lia.
  - exists m. split; [right; auto|]. intros x [<-|Hx]; [lia|]. auto.
Qed.
Definition len_all (N : Z) (x : net) : nat := fold_right Nat.add 0%nat (map (fun p => length (pr_code (x p))) (ranks N)).

Section Common.
  Variables (N : Z) (G : Z -> Z -> list Z) (fin : Z -> pst).
  Hypothesis HG : forall p q, 0 <= p < N -> 0 <= q < N -> p_out (fin p) (Peer q) = G p q.

  Record Good (x : net) (W : Z -> Z -> list Z) : Prop := {
    gd_sent : forall p q, 0 <= p < N -> 0 <= q < N -> G p q = p_out (pr_st (x p)) (Peer q) ++ W p q;
    gd_local : forall p, 0 <= p < N -> exists s, exec_is (pr_code (x p)) (given N W p (pr_st (x p))) = Some s /\ peq s (fin p);
    gd_wf : forall p, 0 <= p < N -> Forall (iwf N p) (pr_code (x p)) /\ StronglySorted (iord N p) (pr_code (x p)) }.

  Lemma good_step x W r y : 0 <= r < N -> Good x W -> nexec r x = Some y -> exists W', Good y W'.
  Proof.
    intros Hr [A B C] E. assert (HrN : inN N r = true) by (unfold inN; lia). destruct (nexec_inv _ _ _ E) as (i & l & s' & Ec & Ei & Cr & Co & Mm & Oo & Ii).
    set (bs := sent i (p_mem (pr_st (x r)))) in *.
    set (W' := fun q p => if q =? r then skipn (length (bs p)) (W r p) else W q p).
    destruct (B r Hr) as (s & Es & Ps). rewrite Ec in Es. cbn [exec_is] in Es.
    destruct (exec_i_more _ _ _ (ext N W r) Ei) as (s2 & E2 & M2 & O2 & I2). unfold given in Es. rewrite E2 in Es.
    assert (HW : forall q, 0 <= q < N -> W r q = bs q ++ W' r q).
    { intros q Hq. unfold W'. rewrite Z.eqb_refl. destruct (exec_is_out l q _ _ Es) as (w & Hw). rewrite O2, (exec_i_out _ _ _ q Ei), <- app_assoc in Hw. fold bs in Hw.
      destruct Ps as [_ _ P3]. rewrite P3, (HG r q Hr Hq), (A r q Hr Hq) in Hw. apply app_inv_head in Hw. rewrite Hw. f_equal. rewrite skipn_app, skipn_all, Nat.sub_diag. reflexivity. }
    exists W'. constructor.
    - intros p q Hp Hq. rewrite (A p q Hp Hq), Oo. destruct (p =? r) eqn:Ep; [|unfold W'; rewrite Ep; auto]. assert (p = r) by lia. subst p.
      rewrite (exec_i_out _ _ _ q Ei). fold bs. rewrite (HW q Hq), <- app_assoc. auto.
    - intros p Hp. assert (X : forall ch, ext N W p ch = (if on ch (Some (Peer r)) then bs p else []) ++ ext N W' p ch).
      { intros ch. apply ext_step; auto. intros q Hq. unfold W'. replace (q =? r) with false by lia. auto. }
      destruct (p =? r) eqn:Ep.
      + assert (p = r) by lia. subst p. rewrite Cr. destruct (exec_is_peq l s2 (given N W' r (pr_st (y r))) s) as (t & Et & Pt); auto.
        { constructor; cbn [given p_mem p_in p_out]; [rewrite Mm, Z.eqb_refl; auto| |intros ch; rewrite Oo, Z.eqb_refl; auto].
          intros ch. rewrite I2, Ii, Z.eqb_refl, X, app_assoc. auto. }
        exists t. split; auto. eapply peq_trans; [apply peq_sym; exact Pt|auto].
      + rewrite Co by lia. destruct (B p Hp) as (t0 & Et0 & Pt0). destruct (exec_is_peq (pr_code (x p)) (given N W p (pr_st (x p))) (given N W' p (pr_st (y p))) t0) as (t & Et & Pt); auto.
        { constructor; cbn [given p_mem p_in p_out]; [rewrite Mm, Ep; auto| |intros ch; rewrite Oo, Ep; auto]. intros ch. rewrite Ii, Ep, X, app_assoc. auto. }
        exists t. split; auto. eapply peq_trans; [apply peq_sym; exact Pt|auto].
    - intros p Hp. destruct (Z.eq_dec p r) as [->|Hne]; [|rewrite Co by auto; auto]. rewrite Cr. destruct (C r Hr) as [C1 C2]. rewrite Ec in C1, C2. inversion C1; inversion C2; auto.
  Qed.

  (* a process which waits needs data of another one which did not send it yet *)
  Lemma waits x W p i l : 0 <= p < N -> Good x W -> pr_code (x p) = i :: l -> nexec p x = None ->
    exists q, i_in i = Some (Peer q) /\ i_out i = None /\ 0 <= q < N /\ q <> p /\ exists j, In j (pr_code (x q)) /\ i_out j = Some (Peer p).
  Proof.
    intros Hp [A B C] Ec En. destruct (B p Hp) as (s & Es & _). rewrite Ec in Es. cbn [exec_is] in Es.
    destruct (exec_i i (given N W p (pr_st (x p)))) as [s1|] eqn:E1; [|discriminate].
    assert (Ei : exec_i i (pr_st (x p)) = None). { unfold nexec in En. rewrite Ec in En. destruct (exec_i i (pr_st (x p))); [discriminate|auto]. }
    destruct (C p Hp) as [C1 _]. rewrite Ec in C1. inversion C1 as [|? ? Hi _]; subst. unfold iwf in Hi.
    destruct (i_in i) as [[q| |]|] eqn:Iin; try tauto.
    2:{ exfalso. unfold exec_i in E1, Ei. rewrite Iin in E1, Ei. destruct (_ <? _); [discriminate|discriminate]. }
    destruct (i_out i) eqn:Io; [tauto|]. exists q. destruct Hi as [Hq Hne]. split; auto. split; auto. split; auto. split; auto.
    destruct (existsb (fun j => on (Peer p) (i_out j)) (pr_code (x q))) eqn:Ex.
    - apply existsb_exists in Ex. destruct Ex as (j & Hj & Ho). exists j. split; auto. unfold on in Ho. destruct (i_out j) as [c|]; [|discriminate]. destruct (chan_eq_dec (Peer p) c); [subst; auto|discriminate].
    - exfalso. destruct (B q Hq) as (t & Et & Pt).
      assert (Q : p_out t (Peer p) = p_out (pr_st (x q)) (Peer p)).
      { refine (exec_is_quiet _ p _ _ _ Et). intros j Hj Ho. rewrite <- not_true_iff_false in Ex. apply Ex. apply existsb_exists. exists j. split; auto. rewrite Ho. apply Proof_Comb1.on_refl. }
      destruct Pt as [_ _ P3]. rewrite P3, (HG q p Hq Hp), (A q p Hq Hp) in Q.
      assert (W0 : W q p = []). { apply (f_equal (@length _)) in Q. rewrite app_length in Q. destruct (W q p); auto. cbn [length] in Q. lia. }
      unfold exec_i in E1, Ei. rewrite Iin in E1, Ei. cbn [given p_in ext] in E1. replace (inN N q) with true in E1 by (unfold inN; lia). rewrite W0, app_nil_r in E1.
      destruct (_ <? _); discriminate.
  Qed.

  Lemma good_progress x W : Good x W -> AllDone N x \/ exists p y, 0 <= p < N /\ nexec p x = Some y.
  Proof.
    intros HGd. destruct (existsb (fun p => match nexec p x with Some _ => true | None => false end) (ranks N)) eqn:Ex.
    { apply existsb_exists in Ex. destruct Ex as (p & Hp & H). apply ranks_in in Hp. destruct (nexec p x) as [y|] eqn:E; [|discriminate]. right. eauto. }
    assert (Hn : forall p, 0 <= p < N -> nexec p x = None).
    { intros p Hp. destruct (nexec p x) eqn:E; auto. rewrite <- not_true_iff_false in Ex. exfalso. apply Ex. apply existsb_exists. exists p. rewrite E. split; auto. apply ranks_in; auto. }
    set (busy := filter (fun p => match pr_code (x p) with [] => false | _ => true end) (ranks N)).
    destruct busy as [|b0 bl] eqn:Eb.
    { left. intros p Hp. destruct (pr_code (x p)) eqn:E; auto. exfalso. assert (In p busy) by (unfold busy; apply filter_In; rewrite E; split; auto; apply ranks_in; auto). rewrite Eb in H. destruct H. }
    exfalso. set (f := fun p => match pr_code (x p) with i :: _ => match ikey N p i with Some k => k | None => 0 end | [] => 0 end).
    destruct (least f busy ltac:(rewrite Eb; discriminate)) as (p & Hp & Hm).
    apply filter_In in Hp. destruct Hp as [Hp Hc]. apply ranks_in in Hp. destruct (pr_code (x p)) as [|i l] eqn:Ec; [discriminate|]. clear Hc.
    destruct (waits x W p i l Hp HGd Ec (Hn p Hp)) as (q & I1 & I2 & Hq & Hne & j & Hj & Ho).
    assert (Hqb : In q busy). { unfold busy. apply filter_In. split; [apply ranks_in; auto|]. destruct (pr_code (x q)); auto. }
    specialize (Hm q Hqb). unfold f in Hm. rewrite Ec in Hm. unfold ikey in Hm at 1. rewrite I1, I2 in Hm.
    destruct (pr_code (x q)) as [|h t] eqn:Eq; [destruct Hj|].
    destruct (waits x W q h t Hq HGd Eq (Hn q Hq)) as (r & J1 & J2 & Hr & Hne2 & _).
    unfold ikey in Hm. rewrite J1, J2 in Hm.
    destruct Hj as [<-|Hj]; [congruence|].
    destruct (gd_wf _ _ HGd q Hq) as [F S]. rewrite Eq in F, S. inversion S as [|? ? S1 S2]; subst. rewrite Forall_forall in S2, F. specialize (S2 j Hj). specialize (F j (or_intror Hj)).
    unfold iwf in F. rewrite Ho in F. destruct (i_in j) as [[| |]|] eqn:Ij; try tauto.
    assert (mkey N r q <= mkey N q p). { apply S2; unfold ikey; [rewrite J1, J2; auto|rewrite Ij, Ho; auto]. }
    destruct (mkey_inj N q p r q); auto; lia.
  Qed.

  Lemma len_step x p y : 0 <= p < N -> nexec p x = Some y -> (S (len_all N y) = len_all N x)%nat.
  Proof.
    intros Hp E. destruct (nexec_inv _ _ _ E) as (i & l & s' & Ec & _ & Cr & Co & _). unfold len_all.
    assert (ND := ranks_nodup N). assert (Hin : In p (ranks N)) by (apply ranks_in; auto). revert ND Hin. generalize (ranks N). induction l0 as [|a r IH]; intros ND Hin; [destruct Hin|].
    apply NoDup_cons_iff in ND as [Ha NDr]. cbn [map fold_right]. destruct Hin as [->|Hin].
    - rewrite Cr, Ec. cbn [length Nat.add]. f_equal. f_equal. f_equal. apply map_ext_in. intros b Hb. rewrite Co; auto. intros ->. auto.
    - assert (a <> p) by (intros ->; auto). rewrite (Co a) by auto. rewrite <- IH by auto. lia.
  Qed.

  Lemma good_ends n : forall x W, len_all N x = n -> Good x W -> exists sc z W', Sched N sc /\ nrun sc x = Some z /\ AllDone N z /\ Good z W'.
  Proof.
    induction n as [n IH] using lt_wf_ind. intros x W Hl HGd. destruct (good_progress x W HGd) as [D|(p & y & Hp & E)].
    - exists [], x, W. split; [intros q []|]. auto.
    - destruct (good_step x W p y Hp HGd E) as (W1 & G1). pose proof (len_step x p y Hp E).
      destruct (IH (len_all N y) ltac:(lia) y W1 eq_refl G1) as (sc & z & W' & A & B & C). exists (p :: sc), z, W'. split.
      + intros q [<-|Hq]; auto.
      + cbn [nrun]. rewrite E. auto.
  Qed.

  (* all executions end as expected *)
  Theorem common_order x (Q : Z -> pst -> Prop) :
    Good x (fun p q => G p q) ->
    (forall p s, 0 <= p < N -> p_mem s = p_mem (fin p) -> (forall q, 0 <= q < N -> p_in s (Peer q) = p_in (fin p) (Peer q)) -> Q p s) ->
    AlwaysEnds N x Q.
  Proof.
    intros HGd HQ. destruct (good_ends _ x _ eq_refl HGd) as (sc & z & W' & A & B & C & D).
    apply (one_for_all N x sc z Q A B C). intros p s Hp [P1 P2 P3].
    assert (W0 : forall q r, 0 <= q < N -> 0 <= r < N -> W' q r = []).
    { intros q r Hq Hr. destruct (gd_local _ _ D q Hq) as (t & Et & [_ _ Pt]). rewrite (C q Hq) in Et. injection Et as <-. cbn [given p_out] in Pt.
      pose proof (gd_sent _ _ D q r Hq Hr) as E. rewrite Pt, (HG q r Hq Hr) in E. apply (f_equal (@length _)) in E. rewrite app_length in E. destruct (W' q r); auto. cbn [length] in E. lia. }
    destruct (gd_local _ _ D p Hp) as (t & Et & [T1 T2 T3]). rewrite (C p Hp) in Et. injection Et as <-. cbn [given p_mem p_in p_out] in *.
    apply HQ; auto; [congruence|]. intros q Hq. rewrite <- P2, <- T2. cbn [ext]. replace (inN N q) with true by (unfold inN; lia). rewrite W0 by auto. rewrite app_nil_r. auto.
  Qed.
End Common.
