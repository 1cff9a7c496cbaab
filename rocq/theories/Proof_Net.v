(* Any two complete executions of a group of processes end in the same state. *)
From Coq Require Import ZArith List Bool Lia ZifyBool ZifyNat.
From Verif Require Import Base Model_Space Model_Mem Model_Transition Model_Action Model_ActionTrans Model_ActionExec Model_Net Spec_Net.
From Verif Require Import Proof_Async2.
Import ListNotations.
Open Scope Z_scope.

Record peq (a b : pst) : Prop := mkPeq {
  peq_mem : p_mem a = p_mem b;
  peq_in : forall ch, p_in a ch = p_in b ch;
  peq_out : forall ch, p_out a ch = p_out b ch }.
Definition neq (x y : net) : Prop := forall p, pr_code (x p) = pr_code (y p) /\ peq (pr_st (x p)) (pr_st (y p)).
Lemma peq_refl a : peq a a. Proof. constructor; auto. Qed.
Lemma neq_refl x : neq x x. Proof. intros p. split; auto using peq_refl. Qed.
Lemma peq_trans a b c : peq a b -> peq b c -> peq a c.
Proof. intros [A1 A2 A3] [B1 B2 B3]. constructor; congruence. Qed.
Lemma peq_sym a b : peq a b -> peq b a.
Proof. intros [A1 A2 A3]. constructor; congruence. Qed.
Lemma neq_trans x y z : neq x y -> neq y z -> neq x z.
Proof. intros A B p. destruct (A p) as [A1 A2], (B p) as [B1 B2]. split; [congruence|]. eapply peq_trans; eauto. Qed.
Lemma neq_sym x y : neq x y -> neq y x.
Proof. intros A p. destruct (A p) as [A1 A2]. split; [congruence|]. apply peq_sym; auto. Qed.

Lemma exec_i_peq i a b a' : peq a b -> exec_i i a = Some a' -> exists b', exec_i i b = Some b' /\ peq a' b'.
Proof.
  intros [E1 E2 E3] H. unfold exec_i in *. rewrite <- E1.
  assert (Ea : match i_in i with Some c => p_in a c | None => [] end = match i_in i with Some c => p_in b c | None => [] end) by (destruct (i_in i); auto).
  rewrite <- Ea. destruct (_ <? _); [discriminate|]. injection H as <-. eexists. split; [reflexivity|].
  constructor; cbn [p_mem p_in p_out]; auto; intros ch; rewrite ?E2, ?E3; reflexivity.
Qed.
Lemma nexec_neq p x y x' : neq x y -> nexec p x = Some x' -> exists y', nexec p y = Some y' /\ neq x' y'.
Proof.
  intros E H. unfold nexec in *. destruct (E p) as [Ec Es]. rewrite <- Ec. destruct (pr_code (x p)) as [|i l]; [discriminate|].
  destruct (exec_i i (pr_st (x p))) as [s|] eqn:Ei; [|discriminate]. injection H as <-.
  destruct (exec_i_peq _ _ _ _ Es Ei) as (s' & Ei' & Es'). rewrite Ei'. eexists. split; [reflexivity|].
  intros q. unfold deliver, upd. cbn [pr_code pr_st]. destruct (E q) as [Fc Fs]. destruct Es as [Em _ _]. rewrite <- Em.
  destruct (q =? p); cbn [pr_code pr_st]; (split; [auto|]).
  - destruct Es' as [A B C]. constructor; cbn [p_mem p_in p_out]; auto. intros ch. rewrite B. reflexivity.
  - destruct Fs as [A B C]. constructor; cbn [p_mem p_in p_out]; auto. intros ch. rewrite B. reflexivity.
Qed.
Lemma nrun_neq sc : forall x y x', neq x y -> nrun sc x = Some x' -> exists y', nrun sc y = Some y' /\ neq x' y'.
Proof.
  induction sc as [|p sc IH]; intros x y x' E H.
  - injection H as <-. exists y. split; auto.
  - cbn [nrun] in *. destruct (nexec p x) as [x1|] eqn:E1; [|discriminate].
    destruct (nexec_neq _ _ _ _ E E1) as (y1 & Ey & En). rewrite Ey. eapply IH; eauto.
Qed.
Lemma nrun_app a : forall b x, nrun (a ++ b) x = match nrun a x with Some y => nrun b y | None => None end.
Proof. induction a as [|p a IH]; intros b x; auto. cbn [app nrun]. destruct (nexec p x); auto. Qed.

(* a process having more input does the same and leaves it *)
Lemma exec_i_more i s s' (w : chan -> list Z) : exec_i i s = Some s' ->
  exists s2, exec_i i (mkP (p_mem s) (fun ch => p_in s ch ++ w ch) (p_out s)) = Some s2 /\
    p_mem s2 = p_mem s' /\ (forall ch, p_out s2 ch = p_out s' ch) /\ (forall ch, p_in s2 ch = p_in s' ch ++ w ch).
Proof.
  intros H. unfold exec_i in *. cbn [p_in p_mem p_out] in *.
  destruct (i_in i) as [c|] eqn:Ei.
  - destruct (Z.of_nat (length (p_in s c)) <? i_take i) eqn:El; [discriminate|]. injection H as <-. cbn [p_in p_mem p_out].
    destruct (Z.of_nat (length (p_in s c ++ w c)) <? i_take i) eqn:El2; [rewrite app_length in El2; lia|].
    assert (Hk : (bytes (i_take i) <= length (p_in s c))%nat) by (unfold bytes; lia).
    eexists. split; [reflexivity|]. cbn [p_in p_mem p_out].
    assert (Ef : firstn (bytes (i_take i)) (p_in s c ++ w c) = firstn (bytes (i_take i)) (p_in s c)).
    { rewrite firstn_app. replace (bytes (i_take i) - length (p_in s c))%nat with 0%nat by lia. cbn [firstn]. apply app_nil_r. }
    rewrite Ef. split; [auto|]. split; [auto|]. intros ch. unfold on. destruct (chan_eq_dec ch c) as [->|]; [|reflexivity].
    rewrite skipn_app. replace (bytes (i_take i) - length (p_in s c))%nat with 0%nat by lia. reflexivity.
  - destruct (Z.of_nat (length (@nil Z)) <? i_take i); [discriminate|]. injection H as <-. eexists. split; [reflexivity|]. auto.
Qed.
Lemma exec_i_less i s s2 (w : chan -> list Z) s' : exec_i i s = Some s' -> exec_i i (mkP (p_mem s) (fun ch => p_in s ch ++ w ch) (p_out s)) = Some s2 ->
  peq s2 (mkP (p_mem s') (fun ch => p_in s' ch ++ w ch) (p_out s')).
Proof.
  intros H H2. destruct (exec_i_more _ _ _ w H) as (s3 & E & A & B & C). rewrite E in H2. injection H2 as <-. constructor; auto.
Qed.
Lemma exec_is_peq l : forall a b a', peq a b -> exec_is l a = Some a' -> exists b', exec_is l b = Some b' /\ peq a' b'.
Proof.
  induction l as [|i l IH]; intros a b a' E H.
  - injection H as <-. exists b. auto.
  - cbn [exec_is] in *. destruct (exec_i i a) as [a1|] eqn:Ea; [|discriminate]. destruct (exec_i_peq _ _ _ _ E Ea) as (b1 & Eb & E1). rewrite Eb. eauto.
Qed.
Lemma exec_is_more l : forall s s' (w : chan -> list Z), exec_is l s = Some s' ->
  exists s2, exec_is l (mkP (p_mem s) (fun ch => p_in s ch ++ w ch) (p_out s)) = Some s2 /\
    peq s2 (mkP (p_mem s') (fun ch => p_in s' ch ++ w ch) (p_out s')).
Proof.
  induction l as [|i l IH]; intros s s' w H.
  - injection H as <-. eexists. split; [reflexivity|apply peq_refl].
  - cbn [exec_is] in *. destruct (exec_i i s) as [s1|] eqn:E; [|discriminate].
    destruct (exec_i_more _ _ _ w E) as (t & Et & A & B & C). rewrite Et.
    destruct (IH _ _ w H) as (u & Eu & Pu).
    assert (P1 : peq (mkP (p_mem s1) (fun ch => p_in s1 ch ++ w ch) (p_out s1)) t) by (constructor; cbn [p_mem p_in p_out]; auto).
    destruct (exec_is_peq l _ _ _ P1 Eu) as (v & Ev & Pv).
    exists v. split; auto. eapply peq_trans; [apply peq_sym; exact Pv|auto].
Qed.

Lemma on_peer p q : on (Peer p) (Some (Peer q)) = (p =? q).
Proof. unfold on. destruct (chan_eq_dec (Peer p) (Peer q)) as [E|E]; [injection E as ->; lia|]. destruct (p =? q) eqn:E2; auto. exfalso. apply E. f_equal. lia. Qed.
Lemma peer_on p q ch : p <> q -> on ch (Some (Peer p)) = true -> on ch (Some (Peer q)) = false.
Proof.
  unfold on. intros H. destruct (chan_eq_dec ch (Peer p)) as [->|]; [|discriminate]. intros _.
  destruct (chan_eq_dec (Peer p) (Peer q)) as [E|]; auto. injection E as E. congruence.
Qed.

(* two processes can step in any order *)
Lemma diamond p q x y x1 : p <> q -> nexec p x = Some y -> nexec q x = Some x1 ->
  exists x2 y2, nexec p x1 = Some x2 /\ nexec q y = Some y2 /\ neq x2 y2.
Proof.
  intros Hpq Hp Hq. unfold nexec in Hp, Hq.
  destruct (pr_code (x p)) as [|i l] eqn:Cp; [discriminate|]. destruct (exec_i i (pr_st (x p))) as [sp|] eqn:Ep; [|discriminate]. injection Hp as <-.
  destruct (pr_code (x q)) as [|j k] eqn:Cq; [discriminate|]. destruct (exec_i j (pr_st (x q))) as [sq|] eqn:Eq; [|discriminate]. injection Hq as <-.
  set (bp := sent i (p_mem (pr_st (x p)))). set (bq := sent j (p_mem (pr_st (x q)))).
  destruct (exec_i_more _ _ _ (fun ch => if on ch (Some (Peer q)) then bq p else []) Ep) as (sp2 & Fp & A1 & A2 & A3).
  destruct (exec_i_more _ _ _ (fun ch => if on ch (Some (Peer p)) then bp q else []) Eq) as (sq2 & Fq & B1 & B2 & B3).
  assert (Np : (p =? q) = false) by lia. assert (Nq : (q =? p) = false) by lia.
  unfold nexec.
  assert (X : deliver q bq (upd x q (mkProc k sq)) p = mkProc (i :: l) (mkP (p_mem (pr_st (x p))) (fun ch => if on ch (Some (Peer q)) then p_in (pr_st (x p)) ch ++ bq p else p_in (pr_st (x p)) ch) (p_out (pr_st (x p))))).
  { unfold deliver, upd. rewrite Np, Cp. reflexivity. }
  assert (Y : deliver p bp (upd x p (mkProc l sp)) q = mkProc (j :: k) (mkP (p_mem (pr_st (x q))) (fun ch => if on ch (Some (Peer p)) then p_in (pr_st (x q)) ch ++ bp q else p_in (pr_st (x q)) ch) (p_out (pr_st (x q))))).
  { unfold deliver, upd. rewrite Nq, Cq. reflexivity. }
  rewrite X, Y. cbn [pr_code pr_st p_mem].
  match type of Fp with exec_i _ ?s = _ => match goal with |- context [exec_i i ?t] =>
    assert (Pp : peq s t) by (constructor; cbn [p_mem p_in p_out]; auto; intros ch; destruct (on ch _); auto; apply app_nil_r) end end.
  match type of Fq with exec_i _ ?s = _ => match goal with |- context [exec_i j ?t] =>
    assert (Pq : peq s t) by (constructor; cbn [p_mem p_in p_out]; auto; intros ch; destruct (on ch _); auto; apply app_nil_r) end end.
  destruct (exec_i_peq _ _ _ _ Pp Fp) as (sp3 & Gp & [C1 C2 C3]).
  destruct (exec_i_peq _ _ _ _ Pq Fq) as (sq3 & Gq & [D1 D2 D3]).
  rewrite Gp, Gq. eexists _, _. split; [reflexivity|]. split; [reflexivity|].
  fold bp bq. intros t. unfold deliver, upd. cbn [pr_code pr_st].
  destruct (t =? p) eqn:Tp.
  - assert (t = p) by lia. subst t. rewrite Np. cbn [pr_code pr_st]. split; [auto|]. constructor; cbn [p_mem p_in p_out].
    + congruence.
    + intros ch. rewrite <- C2, A3. destruct (on ch (Some (Peer p))) eqn:O1.
      * rewrite (peer_on p q ch Hpq O1). rewrite app_nil_r. reflexivity.
      * destruct (on ch (Some (Peer q))); auto. apply app_nil_r.
    + intros ch. congruence.
  - destruct (t =? q) eqn:Tq; cbn [pr_code pr_st].
    + assert (t = q) by lia. subst t. split; [auto|]. constructor; cbn [p_mem p_in p_out].
      * congruence.
      * intros ch. rewrite <- D2, B3. destruct (on ch (Some (Peer q))) eqn:O1.
        -- rewrite (peer_on q p ch ltac:(congruence) O1). rewrite app_nil_r. reflexivity.
        -- destruct (on ch (Some (Peer p))); auto. rewrite app_nil_r. auto.
      * intros ch. congruence.
    + split; [auto|]. constructor; cbn [p_mem p_in p_out]; auto. intros ch.
      destruct (on ch (Some (Peer p))) eqn:O1; [rewrite (peer_on p q ch Hpq O1); auto|]. auto.
Qed.

(* a step of p can be done first *)
Lemma pull p : forall sc x z y, nexec p x = Some y -> In p sc -> nrun sc x = Some z ->
  exists sc2 z2, nrun sc2 y = Some z2 /\ neq z z2 /\ (forall q, In q sc2 -> In q sc) /\ length sc = S (length sc2).
Proof.
  induction sc as [|q sc IH]; intros x z y Hy Hi Hz; [destruct Hi|]. cbn [nrun] in Hz.
  destruct (nexec q x) as [x1|] eqn:Eq; [|discriminate].
  destruct (Z.eq_dec q p) as [->|Hn].
  - rewrite Hy in Eq. injection Eq as <-. exists sc, z. split; [auto|]. split; [apply neq_refl|]. split; [right; auto|auto].
  - destruct Hi as [Hi|Hi]; [congruence|].
    destruct (diamond p q x y x1 ltac:(congruence) Hy Eq) as (x2 & y2 & E1 & E2 & En).
    destruct (IH x1 z x2 E1 Hi Hz) as (sc2 & z2 & R & Nz & Hs & Hl).
    destruct (nrun_neq _ _ _ _ En R) as (z3 & R3 & N3).
    exists (q :: sc2), z3. split; [cbn [nrun]; rewrite E2; auto|]. split; [eapply neq_trans; eauto|]. split.
    + intros t [Ht|Ht]; [left|right]; auto.
    + simpl. lia.
Qed.

Lemma code_nexec p x y q : nexec p x = Some y -> pr_code (x q) = (if q =? p then match pr_code (x p) with i :: _ => [i] | [] => [] end else []) ++ pr_code (y q).
Proof.
  unfold nexec. destruct (pr_code (x p)) as [|i l] eqn:C; [discriminate|]. destruct (exec_i i (pr_st (x p))); [|discriminate]. intros H. injection H as <-.
  unfold deliver, upd. cbn [pr_code]. destruct (q =? p) eqn:E; auto. replace q with p by lia. rewrite C. reflexivity.
Qed.
Lemma done_in p : forall sc x z, nrun sc x = Some z -> pr_code (x p) <> [] -> pr_code (z p) = [] -> In p sc.
Proof.
  induction sc as [|q sc IH]; intros x z H Hx Hz.
  - injection H as <-. congruence.
  - cbn [nrun] in H. destruct (nexec q x) as [y|] eqn:E; [|discriminate]. destruct (Z.eq_dec q p) as [->|Hn]; [left; auto|]. right.
    apply (IH y z H); auto. pose proof (code_nexec _ _ _ p E) as C. destruct (p =? q) eqn:F; [lia|]. cbn [app] in C. congruence.
Qed.

Lemma confluence N : forall sc1 x y sc z, Sched N sc1 -> Sched N sc -> nrun sc1 x = Some y -> nrun sc x = Some z -> AllDone N z ->
  exists sc2 z2, Sched N sc2 /\ nrun sc2 y = Some z2 /\ neq z z2.
Proof.
  induction sc1 as [|p sc1 IH]; intros x y sc z S1 S H1 H D.
  - injection H1 as <-. exists sc, z. split; auto. split; auto. apply neq_refl.
  - cbn [nrun] in H1. destruct (nexec p x) as [x1|] eqn:E; [|discriminate].
    assert (Hp : 0 <= p < N) by (apply S1; left; auto).
    assert (Hin : In p sc).
    { apply (done_in p sc x z H); [|apply D; auto]. unfold nexec in E. destruct (pr_code (x p)); congruence. }
    destruct (pull p sc x z x1 E Hin H) as (sc2 & z2 & R & Nz & Hs & _).
    destruct (IH x1 y sc2 z2) as (sc3 & z3 & S3 & R3 & N3); auto.
    + intros q Hq. apply S1. right. auto.
    + intros q Hq. apply S. auto.
    + intros q Hq. rewrite <- (D q Hq). symmetry. apply (Nz q).
    + exists sc3, z3. split; auto. split; auto. eapply neq_trans; eauto.
Qed.

Lemma nexec_done N x p : AllDone N x -> 0 <= p < N -> nexec p x = None.
Proof. intros H Hp. unfold nexec. rewrite (H p Hp). reflexivity. Qed.

(* one complete execution suffices *)
Theorem one_for_all N x sc z (Q : Z -> pst -> Prop) : Sched N sc -> nrun sc x = Some z -> AllDone N z ->
  (forall p s, 0 <= p < N -> peq (pr_st (z p)) s -> Q p s) -> AlwaysEnds N x Q.
Proof.
  intros S H D HQ sc1 y S1 H1. destruct (confluence N sc1 x y sc z S1 S H1 H D) as (sc2 & z2 & S2 & R2 & N2). split.
  - exists sc2, z2. split; auto. split; auto. intros p Hp. rewrite <- (D p Hp). symmetry. apply (N2 p).
  - intros Dy p Hp. apply HQ; auto. destruct sc2 as [|q sc2].
    + injection R2 as <-. apply (N2 p).
    + cbn [nrun] in R2. rewrite (nexec_done N y q) in R2; auto; [discriminate|]. apply S2. left. auto.
Qed.

(* ---- executions in phases ---- *)
Definition noself (p : Z) (l : list instr) : Prop := Forall (fun i => i_out i <> Some (Peer p)) l.

Lemma noself_sent p i m : i_out i <> Some (Peer p) -> sent i m p = [].
Proof. unfold sent. destruct (i_out i) as [[t| |]|]; auto. destruct (t =? p) eqn:E; auto. intros H. exfalso. apply H. f_equal. f_equal. lia. Qed.
Lemma exec_i_out i s s' q : exec_i i s = Some s' -> p_out s' (Peer q) = p_out s (Peer q) ++ sent i (p_mem s) q.
Proof.
  unfold exec_i. destruct (_ <? _); [discriminate|]. intros H. injection H as <-. cbn [p_out]. unfold sent.
  destruct (i_out i) as [[t| |]|]; cbn [on]; rewrite ?app_nil_r; auto.
  - unfold on. destruct (chan_eq_dec (Peer q) (Peer t)) as [E|E].
    + injection E as ->. rewrite Z.eqb_refl. auto.
    + destruct (t =? q) eqn:F; [exfalso; apply E; f_equal; lia|]. rewrite app_nil_r. auto.
Qed.

(* p alone executes l *)
Lemma solo p l : forall x rest s', pr_code (x p) = l ++ rest -> noself p l -> exec_is l (pr_st (x p)) = Some s' ->
  exists y, nrun (repeat p (length l)) x = Some y /\ pr_code (y p) = rest /\ peq (pr_st (y p)) s' /\
    forall q, q <> p -> pr_code (y q) = pr_code (x q) /\ p_mem (pr_st (y q)) = p_mem (pr_st (x q)) /\
      (forall ch, p_out (pr_st (y q)) ch = p_out (pr_st (x q)) ch) /\
      exists w, p_out s' (Peer q) = p_out (pr_st (x p)) (Peer q) ++ w /\
        forall ch, p_in (pr_st (y q)) ch = p_in (pr_st (x q)) ch ++ (if on ch (Some (Peer p)) then w else []).
Proof.
  induction l as [|i l IH]; intros x rest s' Hc Hn H.
  - injection H as <-. exists x. split; [reflexivity|]. split; [auto|]. split; [apply peq_refl|]. intros q Hq. split; [auto|]. split; [auto|]. split; [auto|].
    exists []. split; [rewrite app_nil_r; auto|]. intros ch. destruct (on ch _); rewrite app_nil_r; auto.
  - cbn [exec_is] in H. destruct (exec_i i (pr_st (x p))) as [s1|] eqn:Ei; [|discriminate]. inversion Hn as [|? ? Hi Hl]; subst.
    set (x1 := deliver p (sent i (p_mem (pr_st (x p)))) (upd x p (mkProc (l ++ rest) s1))).
    assert (E1 : nexec p x = Some x1) by (unfold nexec; rewrite Hc; cbn [app]; rewrite Ei; reflexivity).
    assert (Px : peq s1 (pr_st (x1 p))).
    { unfold x1, deliver, upd. rewrite Z.eqb_refl. cbn [pr_st]. constructor; cbn [p_mem p_in p_out]; auto. intros ch. rewrite noself_sent by auto. destruct (on ch _); rewrite ?app_nil_r; auto. }
    destruct (exec_is_peq l s1 (pr_st (x1 p)) s' Px H) as (s2 & E2 & P2).
    destruct (IH x1 rest s2) as (y & R & Cy & Py & Oy); auto.
    { unfold x1, deliver, upd. rewrite Z.eqb_refl. reflexivity. }
    exists y. split; [cbn [length repeat nrun]; rewrite E1; exact R|]. split; [auto|]. split; [eapply peq_trans; [exact Py|apply peq_sym; auto]|].
    intros q Hq. destruct (Oy q Hq) as (A & B & C & w & W1 & W2).
    assert (Xq : x1 q = mkProc (pr_code (x q)) (mkP (p_mem (pr_st (x q))) (fun ch => if on ch (Some (Peer p)) then p_in (pr_st (x q)) ch ++ sent i (p_mem (pr_st (x p))) q else p_in (pr_st (x q)) ch) (p_out (pr_st (x q))))).
    { unfold x1, deliver, upd. destruct (q =? p) eqn:F; [lia|]. reflexivity. }
    rewrite Xq in *. cbn [pr_code pr_st p_mem p_in p_out] in *. split; [auto|]. split; [auto|]. split; [auto|].
    exists (sent i (p_mem (pr_st (x p))) q ++ w). split.
    + destruct P2 as [_ _ P3]. rewrite P3, W1. destruct Px as [_ _ Px3]. rewrite <- Px3, (exec_i_out _ _ _ q Ei), app_assoc. auto.
    + intros ch. rewrite W2. destruct (on ch _); rewrite ?app_nil_r, ?app_assoc; auto.
Qed.

(* all processes of a list execute what they can with the input they have *)
Lemma phase_list (l rest : Z -> list instr) (w : Z -> Z -> list Z) : forall ps, NoDup ps -> forall (s' : Z -> pst) x,
  (forall p, In p ps -> pr_code (x p) = l p ++ rest p /\ noself p (l p) /\ 
     (exists e, exec_is (l p) (mkP (p_mem (pr_st (x p))) (fun ch => p_in (pr_st (x p)) ch) (p_out (pr_st (x p)))) = Some e /\ peq e (s' p)) /\
     forall q, p_out (s' p) (Peer q) = p_out (pr_st (x p)) (Peer q) ++ w p q) ->
  exists sc y, (forall p, In p sc -> In p ps) /\ nrun sc x = Some y /\
    (forall p, In p ps -> pr_code (y p) = rest p /\ p_mem (pr_st (y p)) = p_mem (s' p) /\ (forall ch, p_out (pr_st (y p)) ch = p_out (s' p) ch) /\
       forall q, p_in (pr_st (y p)) (Peer q) = p_in (s' p) (Peer q) ++ (if existsb (fun t => t =? q) ps then if q =? p then [] else w q p else [])) /\
    (forall p, ~ In p ps -> pr_code (y p) = pr_code (x p) /\ p_mem (pr_st (y p)) = p_mem (pr_st (x p)) /\ (forall ch, p_out (pr_st (y p)) ch = p_out (pr_st (x p)) ch) /\
       forall q, p_in (pr_st (y p)) (Peer q) = p_in (pr_st (x p)) (Peer q) ++ (if existsb (fun t => t =? q) ps then w q p else [])).
Proof.
  induction ps as [|p ps IH]; intros ND s' x H.
  - exists [], x. split; [auto|]. split; [reflexivity|]. split; [intros p []|]. intros p _. split; [auto|]. split; [auto|]. split; [auto|]. intros q. cbn [existsb]. rewrite app_nil_r. auto.
  - inversion ND as [|? ? Hnp ND']; subst.
    destruct (H p (or_introl eq_refl)) as (Hc & Hn & (e & He & Pe) & Hw).
    assert (P0 : peq (mkP (p_mem (pr_st (x p))) (fun ch => p_in (pr_st (x p)) ch) (p_out (pr_st (x p)))) (pr_st (x p))) by (constructor; auto).
    destruct (exec_is_peq _ _ _ _ P0 He) as (e2 & He2 & Pe2).
    destruct (solo p (l p) x (rest p) e2 Hc Hn He2) as (x1 & R1 & C1 & P1 & O1).
    assert (Hw1 : forall q, q <> p -> forall ch, p_in (pr_st (x1 q)) ch = p_in (pr_st (x q)) ch ++ (if on ch (Some (Peer p)) then w p q else [])).
    { intros q Hq ch. destruct (O1 q Hq) as (_ & _ & _ & w1 & W1 & W2). rewrite W2. destruct Pe as [_ _ Pe3], Pe2 as [_ _ Pe4].
      rewrite <- Pe4, Pe3, Hw in W1. apply app_inv_head in W1. subst w1. auto. }
    set (s1 := fun q => if q =? p then s' q else mkP (p_mem (s' q)) (fun ch => p_in (s' q) ch ++ (if on ch (Some (Peer p)) then w p q else [])) (p_out (s' q))).
    (* the others *)
    assert (Hrest : forall q, In q ps -> pr_code (x1 q) = l q ++ rest q /\ noself q (l q) /\
      (exists e, exec_is (l q) (mkP (p_mem (pr_st (x1 q))) (fun ch => p_in (pr_st (x1 q)) ch) (p_out (pr_st (x1 q)))) = Some e /\ peq e (s1 q)) /\
      forall t, p_out (s1 q) (Peer t) = p_out (pr_st (x1 q)) (Peer t) ++ w q t).
    { intros q Hq. assert (Hqp : q <> p) by (intros ->; auto). destruct (O1 q Hqp) as (A1 & A2 & A3 & _).
      destruct (H q (or_intror Hq)) as (Bc & Bn & (eq & Beq & Bpq) & Bw). split; [congruence|]. split; [auto|].
      unfold s1. destruct (q =? p) eqn:F; [lia|]. split.
      - destruct (exec_is_more (l q) _ _ (fun ch => if on ch (Some (Peer p)) then w p q else []) Beq) as (u & Eu & Pu). cbn [p_mem p_in p_out] in *.
        assert (P3 : peq (mkP (p_mem (pr_st (x q))) (fun ch => p_in (pr_st (x q)) ch ++ (if on ch (Some (Peer p)) then w p q else [])) (p_out (pr_st (x q)))) (mkP (p_mem (pr_st (x1 q))) (fun ch => p_in (pr_st (x1 q)) ch) (p_out (pr_st (x1 q))))).
        { constructor; cbn [p_mem p_in p_out]; auto. intros ch. rewrite Hw1; auto. }
        destruct (exec_is_peq _ _ _ _ P3 Eu) as (v & Ev & Pv). exists v. split; auto.
        eapply peq_trans; [apply peq_sym; exact Pv|]. eapply peq_trans; [exact Pu|]. destruct Bpq as [Q1 Q2 Q3]. constructor; cbn [p_mem p_in p_out]; auto. intros ch. rewrite Q2. auto.
      - intros t. cbn [p_out]. rewrite A3. apply Bw. }
    destruct (IH ND' s1 x1 Hrest) as (sc & y & S & R & Y1 & Y2).
    exists (repeat p (length (l p)) ++ sc), y. split; [|split; [|split]].
    + intros q Hq. apply in_app_or in Hq. destruct Hq as [Hq|Hq]; [apply repeat_spec in Hq; left; auto|right; auto].
    + rewrite nrun_app, R1. exact R.
    + intros q [<-|Hq].
      * destruct (Y2 p Hnp) as (A & B & C & D). destruct P1 as [P11 P12 P13], Pe2 as [P21 P22 P23], Pe as [P31 P32 P33].
        split; [congruence|]. split; [congruence|]. split; [congruence|]. intros t. rewrite D, P12, <- P22, P32. f_equal. cbn [existsb].
        rewrite (Z.eqb_sym p t). destruct (t =? p) eqn:F; cbn [orb]; auto.
        replace t with p by lia. destruct (existsb (fun u => u =? p) ps) eqn:X; auto. apply existsb_exists in X. destruct X as (u & Hu & Hup). exfalso. apply Hnp. replace p with u by lia. auto.
      * assert (Hqp : q <> p) by (intros ->; auto). destruct (Y1 q Hq) as (A & B & C & D). unfold s1 in B, C, D. destruct (q =? p) eqn:F; [lia|]. cbn [p_mem p_in p_out] in *.
        split; [auto|]. split; [auto|]. split; [auto|]. intros t. rewrite D. rewrite <- app_assoc. f_equal. cbn [existsb]. rewrite (Z.eqb_sym p t), on_peer.
        destruct (t =? p) eqn:F2; cbn [orb app]; auto. replace t with p by lia. destruct (p =? q) eqn:F3; [lia|].
        destruct (existsb (fun u => u =? p) ps) eqn:X; [|apply app_nil_r]. apply existsb_exists in X. destruct X as (u & Hu & Hup). exfalso. apply Hnp. replace p with u by lia. auto.
    + intros q Hq. assert (Hqp : q <> p) by (intros ->; apply Hq; left; auto). assert (Hqs : ~ In q ps) by (intros I; apply Hq; right; auto).
      destruct (Y2 q Hqs) as (A & B & C & D). destruct (O1 q Hqp) as (A1 & A2 & A3 & _).
      split; [congruence|]. split; [congruence|]. split; [intros ch; rewrite C; auto|]. intros t. rewrite D, (Hw1 q Hqp), <- app_assoc. f_equal. cbn [existsb]. rewrite (Z.eqb_sym p t), on_peer.
      destruct (t =? p) eqn:F2; cbn [orb app]; auto. replace t with p by lia.
      destruct (existsb (fun u => u =? p) ps) eqn:X; [|apply app_nil_r]. apply existsb_exists in X. destruct X as (u & Hu & Hup). exfalso. apply Hnp. replace p with u by lia. auto.
Qed.

Definition ranks (N : Z) : list Z := map Z.of_nat (seq 0 (Z.to_nat N)).
Lemma ranks_in N p : In p (ranks N) <-> 0 <= p < N.
Proof. unfold ranks. rewrite in_map_iff. split; [intros (k & <- & H); apply in_seq in H; lia|intros H; exists (Z.to_nat p); split; [lia|apply in_seq; lia]]. Qed.
Lemma ranks_nodup N : NoDup (ranks N).
Proof. unfold ranks. apply FinFun.Injective_map_NoDup; [intros a b H; lia|apply seq_NoDup]. Qed.

(* all processes execute l, with the input they have; w p q is what p sends to q *)
Lemma phase N (l rest : Z -> list instr) (w : Z -> Z -> list Z) (s' : Z -> pst) (x : net) :
  (forall p, 0 <= p < N -> pr_code (x p) = l p ++ rest p /\ noself p (l p) /\ exec_is (l p) (pr_st (x p)) = Some (s' p) /\
     forall q, p_out (s' p) (Peer q) = p_out (pr_st (x p)) (Peer q) ++ w p q) ->
  exists sc y, Sched N sc /\ nrun sc x = Some y /\
    forall p, 0 <= p < N -> pr_code (y p) = rest p /\ p_mem (pr_st (y p)) = p_mem (s' p) /\ (forall ch, p_out (pr_st (y p)) ch = p_out (s' p) ch) /\
       forall q, 0 <= q < N -> p_in (pr_st (y p)) (Peer q) = p_in (s' p) (Peer q) ++ (if q =? p then [] else w q p).
Proof.
  intros H. destruct (phase_list l rest w (ranks N) (ranks_nodup N) s' x) as (sc & y & S & R & Y & _).
  - intros p Hp. apply ranks_in in Hp. destruct (H p Hp) as (A & B & C & D). split; [auto|]. split; [auto|]. split; [|auto].
    assert (P0 : peq (pr_st (x p)) (mkP (p_mem (pr_st (x p))) (fun ch => p_in (pr_st (x p)) ch) (p_out (pr_st (x p))))) by (constructor; auto).
    destruct (exec_is_peq _ _ _ _ P0 C) as (e & E & P). exists e. split; auto. apply peq_sym. auto.
  - exists sc, y. split; [intros p Hp; apply ranks_in; auto|]. split; [auto|]. intros p Hp. destruct (Y p) as (A & B & C & D); [apply ranks_in; auto|].
    split; [auto|]. split; [auto|]. split; [auto|]. intros q Hq. rewrite D. f_equal.
    assert (X : existsb (fun t => t =? q) (ranks N) = true) by (apply existsb_exists; exists q; split; [apply ranks_in; auto|lia]). rewrite X. reflexivity.
Qed.

Lemma choice_range {A} (d : A) (P : Z -> A -> Prop) N : (forall p, 0 <= p < N -> exists v, P p v) -> exists f, forall p, 0 <= p < N -> P p (f p).
Proof.
  intros H. destruct (Z.le_gt_cases N 0) as [Hn|Hn]; [exists (fun _ => d); intros; lia|].
  assert (G : forall k, (k <= Z.to_nat N)%nat -> exists f, forall p, 0 <= p < Z.of_nat k -> P p (f p)).
  { induction k as [|k IH]; intros Hk; [exists (fun _ => d); intros; lia|]. destruct (IH ltac:(lia)) as (f & Hf). destruct (H (Z.of_nat k)) as (v & Hv); [lia|].
    exists (fun p => if p =? Z.of_nat k then v else f p). intros p Hp. destruct (p =? Z.of_nat k) eqn:E; [replace p with (Z.of_nat k) by lia; auto|]. apply Hf. lia. }
  destruct (G (Z.to_nat N) ltac:(lia)) as (f & Hf). exists f. intros p Hp. apply Hf. lia.
Qed.

Definition pst0 : pst := mkP (fun _ => 0) (fun _ => []) (fun _ => []).
Lemma phase_ex N (l rest : Z -> list instr) (w : Z -> Z -> list Z) (P : Z -> pst -> Prop) (x : net) :
  (forall p, 0 <= p < N -> pr_code (x p) = l p ++ rest p /\ noself p (l p) /\ exists s', exec_is (l p) (pr_st (x p)) = Some s' /\
     (forall q, p_out s' (Peer q) = p_out (pr_st (x p)) (Peer q) ++ w p q) /\ P p s') ->
  exists sc y, Sched N sc /\ nrun sc x = Some y /\
    forall p, 0 <= p < N -> pr_code (y p) = rest p /\ exists s', P p s' /\ p_mem (pr_st (y p)) = p_mem s' /\ (forall ch, p_out (pr_st (y p)) ch = p_out s' ch) /\
       forall q, 0 <= q < N -> p_in (pr_st (y p)) (Peer q) = p_in s' (Peer q) ++ (if q =? p then [] else w q p).
Proof.
  intros H. destruct (choice_range pst0 (fun p s' => exec_is (l p) (pr_st (x p)) = Some s' /\ (forall q, p_out s' (Peer q) = p_out (pr_st (x p)) (Peer q) ++ w p q) /\ P p s') N) as (s' & Hs).
  { intros p Hp. destruct (H p Hp) as (_ & _ & X). exact X. }
  destruct (phase N l rest w s' x) as (sc & y & S & R & Y).
  { intros p Hp. destruct (H p Hp) as (A & B & _). destruct (Hs p Hp) as (C & D & _). auto. }
  exists sc, y. split; [auto|]. split; [auto|]. intros p Hp. destruct (Y p Hp) as (A & B & C & D). split; [auto|]. exists (s' p). split; [apply Hs; auto|]. auto.
Qed.
