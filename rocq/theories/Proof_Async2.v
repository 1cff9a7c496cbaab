(* Runs with asynchronous messages: result, progress, end. *)
From Coq Require Import ZArith List Bool Lia ZifyBool ZifyNat.
From Verif Require Import Base Model_Space Model_Mem Model_Transition Model_Action Model_ActionTrans Model_ActionExec Model_Async.
From Verif Require Import Spec_ActionTrans Spec_Async Proof_Type Proof_Comb3 Proof_Async1.
Import ListNotations.
Open Scope Z_scope.

Lemma exec_is_app l1 l2 : forall s, exec_is (l1 ++ l2) s = match exec_is l1 s with Some s' => exec_is l2 s' | None => None end.
Proof. induction l1 as [|i l1 IH]; intros s; simpl; auto. destruct (exec_i i s); auto. Qed.

Section Main.
  Variable cx : actx.
  Variable o : apar -> instr.
  Variables rd wr : apar -> area.
  Hypothesis es0 : 0 <= cx_es cx.
  Let es := cx_es cx.
  Let sy := sync_i cx o.
  Variable l : list apar.
  Variable s : pst.
  Hypothesis safe : AsyncSafe cx o rd wr l.

  Definition rel := Rel cx wr.
  Definition postof (p : apar) (i : item) : Prop := exists c, p = MpiIrecv (it_b i) c (it_f i) (it_q i) /\ it_n i = c * es.

  Lemma posts_items k : forall q, Forall2 postof (posts q k) (ritems cx q k).
  Proof.
    induction k as [|p k IH]; intros q; cbn [posts ritems]; [constructor|]. apply Forall2_app; [|apply IH].
    destruct p; constructor; try constructor. unfold postof, it_b, it_f, it_q, it_n; simpl. eauto.
  Qed.

  Lemma ritems_apart k : ForallOrdPairs (pairs cx o rd wr) k -> forall q, ForallOrdPairs (fun i j => apart (it_reg j) (it_reg i)) (ritems cx q k).
  Proof.
    induction 1 as [|p k Hp Hk IH]; intros q; cbn [ritems]; [constructor|].
    assert (HX := IH (nextq q p)). destruct p; simpl; auto. constructor; auto.
    apply Forall_forall. intros i Hi. destruct (ritems_in _ _ _ _ Hi) as (c & Ec & Hc). rewrite Forall_forall in Hp.
    destruct (Hp _ Hc) as [_ H]. destruct (H _ _ _ eq_refl) as (_ & H2 & _). unfold it_reg at 1. rewrite Ec. exact H2.
  Qed.

  Lemma safe_pairs : ForallOrdPairs (pairs cx o rd wr) l.
  Proof. apply (sf_pairs _ _ _ _ _ safe). Qed.

  Lemma fop_tail {T} (Q : T -> T -> Prop) (a b : list T) : ForallOrdPairs Q (a ++ b) -> ForallOrdPairs Q b.
  Proof. induction a; simpl; auto. inversion 1; auto. Qed.

  Inductive Inv : list apar * ast -> Prop :=
  | ph0 A n : rel l [] s A [] -> Inv (MpiReq n :: posts 0 l ++ body 0 l ++ waits 0 l, A)
  | ph1 A P Q Y : ritems cx 0 l = P ++ Q -> Forall2 postof Y Q -> rel l P s A [] -> Inv (Y ++ body 0 l ++ waits 0 l, A)
  | ph2 A dn rest k sq S : l = dn ++ rest -> exec_is (map sy dn) s = Some S -> rel rest (ritems cx k rest) S A sq ->
      (forall q, In q sq -> q < k) -> waits 0 l = map MpiWait (rev sq) ++ waits k rest -> Inv (body k rest ++ waits 0 l, A)
  | ph3 A sq S w1 w2 : exec_is (map sy l) s = Some S -> rel [] [] S A sq -> rev sq = w1 ++ w2 ->
      (forall q, In q w1 -> x_rq A q = Some RDone) -> Inv (map MpiWait w2, A).

  Lemma inv_start : Inv (async_prog l, initial s).
  Proof.
    unfold async_prog. apply ph0. constructor; simpl; auto; try discriminate.
    - constructor.
    - intros i [].
    - constructor.
    - intros c. rewrite app_nil_r. auto.
    - intros c q [H|[]]. discriminate.
    - intros q [].
  Qed.

  Lemma ph1_run A P Q Y p prog : ritems cx 0 l = P ++ Q -> Forall2 postof (p :: Y) Q -> rel l P s A [] ->
    prog = Y ++ body 0 l ++ waits 0 l ->
    exists A', do_op es sy p A = Some A' /\ Inv (prog, A').
  Proof.
    intros E HF HR ->. inversion HF as [|? i ? Q' Hp HY]; subst.
    destruct Hp as (c & -> & Ec).
    assert (Hn := ritems_nodup cx l 0). rewrite E, map_app in Hn. simpl in Hn. apply NoDup_remove_2 in Hn.
    destruct (ritems_in cx l 0 i) as (c' & Ec' & Hin); [rewrite E; apply in_or_app; right; left; auto|].
    assert (HA := ritems_apart l safe_pairs 0). rewrite E in HA.
    assert (HP : forall j, In j P -> apart (it_reg i) (it_reg j)).
    { intros j Hj. clear - HA Hj. induction P as [|x P IH]; [destruct Hj|]. simpl in HA. inversion HA as [|? ? H1 H2]; subst.
      destruct Hj as [->|Hj]; auto. rewrite Forall_forall in H1. apply H1. apply in_or_app. right. left. auto. }
    assert (Hreg : it_reg i = region (it_b i) (c * es)) by (unfold it_reg; rewrite Ec; auto).
    assert (Hi : i = (it_q i, it_b i, c * es, it_f i)) by (destruct i as [[[a b] d] e]; unfold it_q, it_b, it_n, it_f in *; simpl in *; congruence).
    (* the count of the receive *)
    assert (HR2 : exists A', do_op es sy (MpiIrecv (it_b i) c (it_f i) (it_q i)) A = Some A' /\ rel l (P ++ [i]) s A' []).
    { eexists. split; [reflexivity|]. unfold sy.
      assert (HX : forall c1, c1 * es = c * es -> In (BufRecv (it_b i) c1 (it_f i)) l ->
         rel l (P ++ [i]) s (mkX (x_mem A) (setc (x_in A) (Peer (it_f i)) (skipn (bytes (c1 * es)) (x_in A (Peer (it_f i))))) (x_out A)
                  (setq (x_rq A) (it_q i) (RRecv (it_b i) (c1 * es) (firstn (bytes (c1 * es)) (x_in A (Peer (it_f i))))))) []).
      { intros c1 E1 Hc1. destruct (rel_post cx o wr l P s A [] (it_q i) (it_b i) c1 (it_f i)) as (A' & E2 & H2); auto.
        - intros H. apply Hn. apply in_or_app. auto.
        - intros j Hj. fold es. rewrite E1, <- Hreg. auto.
        - intros d Hd. destruct (r_slot _ _ _ _ _ _ _ HR _ _ Hd) as [[] _].
        - cbn [do_op] in E2. injection E2 as E2. rewrite Hi, <- E1. fold es in H2. unfold rel. rewrite <- E2 in H2. exact H2. }
      assert (Ecc : c' * es = c * es) by (unfold es in *; congruence).
      specialize (HX c' Ecc Hin). rewrite Ecc in HX. exact HX. }
    destruct HR2 as (A' & E2 & H2). exists A'. split; auto. eapply ph1; [|exact HY|exact H2]. rewrite E, <- app_assoc. auto.
  Qed.

  Lemma ph2_run A dn p rest k sq S prog : l = dn ++ p :: rest -> exec_is (map sy dn) s = Some S ->
    rel (p :: rest) (ritems cx k (p :: rest)) S A sq -> (forall q, In q sq -> q < k) ->
    waits 0 l = map MpiWait (rev sq) ++ waits k (p :: rest) ->
    prog = body (nextq k p) rest ++ waits 0 l ->
    let p' := match p with BufSend b c t => MpiIsend b c t k | BufRecv _ _ _ => MpiWait k | p => p end in
    (forall A', do_op es sy p' A = Some A' -> Inv (prog, A')) /\
    (exec_is (map sy l) s <> None -> (exists A', do_op es sy p' A = Some A') \/ exists c', astep es sy (p' :: prog, A) c').
  Proof.
    intros El Ex HR Hsq Hw -> p'.
    assert (Hin : In p l) by (rewrite El; apply in_or_app; right; left; auto).
    assert (HF : Forall (pairs cx o rd wr p) rest).
    { pose proof safe_pairs as H. rewrite El in H. apply fop_tail in H. inversion H; auto. }
    assert (Hcnt := sf_count _ _ _ _ _ safe _ Hin). assert (Hpl := sf_plain _ _ _ _ _ safe _ Hin).
    assert (El' : l = (dn ++ [p]) ++ rest) by (rewrite El, <- app_assoc; auto).
    assert (Ex' : forall S', exec_i (sy p) S = Some S' -> exec_is (map sy (dn ++ [p])) s = Some S').
    { intros S' H. rewrite map_app, exec_is_app, Ex. simpl. rewrite H. auto. }
    assert (Hsync : exec_is (map sy l) s <> None -> exec_i (sy p) S <> None).
    { rewrite El, map_app, exec_is_app, Ex. simpl. destruct (exec_i (sy p) S); congruence. }
    assert (Hinc : forall i, In i (ritems cx (nextq k p) rest) -> exists c, it_n i = c * cx_es cx /\ In (BufRecv (it_b i) c (it_f i)) rest)
      by (intros i; apply ritems_in).
    destruct (is_m p) eqn:Em.
    - destruct p; try discriminate; simpl in Hcnt.
      + (* send *)
        destruct (rel_isend cx o rd wr k buf count to rest (ritems cx (k + 1) rest) S A sq) as (S' & A' & E1 & E2 & H).
        * auto.
        * exact HR.
        * exact HF.
        * intros H. apply in_map_iff in H. destruct H as (i & E & H). apply ritems_ge in H. lia.
        * intros H. apply Hsq in H. lia.
        * split.
          -- intros A2 HA. subst p'. unfold sy, es in HA. rewrite E2 in HA. injection HA as <-.
             eapply (ph2 A' (dn ++ [BufSend buf count to]) rest (k + 1)); [exact El'|apply Ex'; exact E1|exact H| |].
             ++ intros q [<-|Hq]; [lia|]. apply Hsq in Hq. lia.
             ++ rewrite Hw. simpl. rewrite map_app, <- app_assoc. reflexivity.
          -- intros _. left. exists A'. exact E2.
      + (* receive *)
        cbn [ritems nextq is_m] in HR. unfold nextq in HR. cbn [is_m app] in HR.
        split.
        * intros A2 HA. subst p'. cbn [do_op] in HA. destruct (x_rq A k) as [[| |]|] eqn:Eq; try discriminate. injection HA as <-.
          destruct (rel_wait cx o wr k buf count from rest (ritems cx (k + 1) rest) S A sq Hcnt HR Hinc Eq) as (S' & E1 & H).
          eapply (ph2 A (dn ++ [BufRecv buf count from]) rest (k + 1)); [exact El'|apply Ex'; exact E1|exact H| |].
          -- intros q Hq. apply Hsq in Hq. lia.
          -- rewrite Hw. reflexivity.
        * intros Hn. apply Hsync in Hn. subst p'. cbn [do_op].
          pose proof (r_items _ _ _ _ _ _ _ HR) as HI. simpl in HI. destruct HI as [HI _].
          unfold it_q, it_b, it_n, it_f in HI; simpl in HI. destruct HI as [HI|(HI & _)].
          -- right. eexists. eapply st_recv; [exact HI|].
             unfold exec_i, sy, sync_i, recv_i in Hn. simpl in Hn. destruct (_ <? _) eqn:E; [congruence|].
             assert (0 <= count * cx_es cx) by nia. rewrite firstn_length. unfold bytes, es in *. lia.
          -- left. rewrite HI. eauto.
    - assert (Hp' : p' = p) by (subst p'; destruct p; try discriminate; auto).
      assert (Hfr : Frame (o p) (rd p) (wr p)).
      { apply (sf_frame _ _ _ _ _ safe); auto; intros; intros ->; discriminate. }
      assert (Hri : ritems cx k (p :: rest) = ritems cx k rest) by (destruct p; try discriminate; auto).
      assert (Hwt : waits k (p :: rest) = waits k rest) by (destruct p; try discriminate; auto).
      assert (Hnx : nextq k p = k) by (unfold nextq; rewrite Em; auto).
      rewrite Hri in HR. assert (HO := rel_other cx o rd wr p rest _ S A sq Hfr Hpl Em HR HF).
      rewrite Hp', Hnx. unfold sy, es in *. destruct (exec_i (sync_i cx o p) S) as [S'|] eqn:E1, (do_op (cx_es cx) (sync_i cx o) p A) as [A'|] eqn:E2; try tauto.
      + split; [|eauto]. intros A2 HA. injection HA as <-.
        eapply (ph2 A' (dn ++ [p]) rest k); [exact El'|apply Ex'; auto|exact HO|auto|]. rewrite Hw, Hwt. auto.
      + split; [discriminate|]. intros Hn. apply Hsync in Hn. congruence.
  Qed.

  Lemma ph12 A : ritems cx 0 l = ritems cx 0 l ++ [] -> rel l (ritems cx 0 l) s A [] -> Inv (body 0 l ++ waits 0 l, A) .
  Proof. intros _ H. eapply (ph2 A [] l 0 [] s); simpl; auto. intros q []. Qed.

  Lemma inv_step c c' : Inv c -> astep es sy c c' -> Inv c'.
  Proof.
    intros HI HS. inversion HS as [p prog A A' HD|prog A q b n Hq|prog A q b n bs Hq Hl]; subst.
    - (* the process *)
      inversion HI as [A1 n HR E|A1 P Q Y EQ HY HR E|A1 dn rest k sq S El Ex HR Hsq Hw E|A1 sq S w1 w2 Ex HR Er Hd E]; subst.
      + simpl in HD. injection HD as <-. eapply ph1 with (P := []); [reflexivity|apply posts_items|exact HR].
      + destruct Y as [|p' Y].
        * inversion HY; subst. rewrite app_nil_r in EQ. subst P. simpl in E.
          destruct l as [|p1 l1] eqn:El; [discriminate|]. cbn [body app] in E. injection E as E1 E2.
          rewrite <- El in *.
          assert (HX := ph2_run A [] p1 l1 0 [] s prog El eq_refl). rewrite <- El in HX.
          destruct (HX HR (fun q (H : In q []) => match H with end) eq_refl ltac:(rewrite El; symmetry; exact E2)) as [H _].
          apply H. rewrite E1. exact HD.
        * simpl in E. injection E as E1 E2. subst p'. destruct (ph1_run A P Q Y p prog EQ HY HR) as (A2 & E3 & H); auto.
          rewrite E3 in HD. injection HD as <-. auto.
      + destruct rest as [|p1 rest].
        * cbn [body app] in E. destruct (rev sq) as [|q0 w] eqn:Er; rewrite Hw in E; simpl in E; [discriminate|].
          injection E as E1 E2. subst p prog. rewrite app_nil_r in El. subst dn.
          simpl in HD. destruct (x_rq A q0) as [[| |]|] eqn:Eq; try discriminate. injection HD as <-.
          rewrite app_nil_r. eapply (ph3 A sq S [q0] w); auto. intros q [<-|[]]. auto.
        * cbn [body app] in E. injection E as E1 E2. destruct (ph2_run A dn p1 rest k sq S prog) as [H _]; auto.
          apply H. rewrite E1. exact HD.
      + destruct w2 as [|q0 w2]; [discriminate|]. simpl in E. injection E as E1 E2. subst p prog.
        simpl in HD. destruct (x_rq A q0) as [[| |]|] eqn:Eq; try discriminate. injection HD as <-.
        eapply (ph3 A sq S (w1 ++ [q0]) w2); auto.
        * rewrite <- app_assoc. auto.
        * intros q Hq. apply in_app_or in Hq. destruct Hq as [Hq|[<-|[]]]; auto.
    - (* a send *)
      inversion HI as [A1 n' HR E|A1 P Q Y EQ HY HR E|A1 dn rest k sq S El Ex HR Hsq Hw E|A1 sq S w1 w2 Ex HR Er Hd E]; subst.
      + apply ph0. apply rel_send; auto.
      + eapply ph1; eauto. apply rel_send; auto.
      + eapply ph2; eauto. apply rel_send; auto.
      + eapply ph3; eauto; [apply rel_send; eauto|]. intros q' H. simpl. unfold setq. destruct (q' =? q); auto.
    - inversion HI as [A1 n' HR E|A1 P Q Y EQ HY HR E|A1 dn rest k sq S El Ex HR Hsq Hw E|A1 sq S w1 w2 Ex HR Er Hd E]; subst.
      + apply ph0. eapply rel_recv; eauto. exists []. auto.
      + eapply ph1; eauto. eapply rel_recv; eauto. exists []. auto.
      + eapply ph2; eauto. eapply rel_recv; eauto.
      + destruct (r_recv _ _ _ _ _ _ _ HR _ _ _ _ Hq) as (i & [] & _).
  Qed.

  Lemma inv_steps c c' : Inv c -> asteps es sy c c' -> Inv c'.
  Proof. intros HI HS. induction HS; auto. apply IHHS. eapply inv_step; eauto. Qed.

  Lemma filled_all (x : list slot) A : (forall q, ~ In (Waiting q) x) -> x = map Filled (map (resolve A) x).
  Proof.
    induction x as [|y x IH]; intros H; simpl; auto. f_equal; [|apply IH; intros q Hq; apply (H q); right; auto].
    destruct y as [bs|q]; auto. destruct (H q). left. auto.
  Qed.

  Lemma inv_end A : Inv ([], A) -> exists S, exec_is (map sy l) s = Some S /\ ResultIs A S.
  Proof.
    intros HI.
    assert (H3 : exists sq S, exec_is (map sy l) s = Some S /\ rel [] [] S A sq /\ forall q, In q sq -> x_rq A q = Some RDone).
    { remember (@nil apar, A) as c0 eqn:Ec.
      destruct HI as [A1 n' HR|A1 P Q Y EQ HY HR|A1 dn rest k sq S El Ex HR Hsq Hw|A1 sq S w1 w2 Ex HR Er Hd]; [discriminate|injection Ec as E Ea; subst A1..].
      - apply app_eq_nil in E. destruct E as [-> E]. apply app_eq_nil in E. destruct E as [E1 E2].
        inversion HY; subst. rewrite app_nil_r in EQ. destruct l as [|p1 l1] eqn:El; [|discriminate].
        simpl in EQ. subst P. exists [], s. split; auto. split; auto. intros q [].
      - apply app_eq_nil in E. destruct E as [E1 E2]. destruct rest as [|p1 rest]; [|discriminate].
        rewrite app_nil_r in El. subst dn. rewrite E2 in Hw. destruct (rev sq) eqn:Er; [|discriminate].
        assert (sq = []) by (rewrite <- (rev_involutive sq), Er; auto). subst sq. exists [], S. split; [auto|]. split; [exact HR|]. intros q [].
      - destruct w2; [|discriminate E]. rewrite app_nil_r in Er. exists sq, S. split; auto. split; auto.
        intros q Hq. apply Hd. rewrite <- Er. apply -> in_rev. auto. }
    destruct H3 as (sq & S & Ex & HR & Hd). exists S. split; auto. split; [|split].
    - intros x. apply (r_mem _ _ _ _ _ _ _ HR). intros i [].
    - intros c. symmetry. apply (r_items _ _ _ _ _ _ _ HR).
    - intros c. exists (map (resolve A) (x_out A c)). split.
      + apply filled_all. intros q Hq. destruct (r_slot _ _ _ _ _ _ _ HR _ _ Hq) as (H1 & b & n & E & _). apply Hd in H1. congruence.
      + symmetry. apply (r_out _ _ _ _ _ _ _ HR).
  Qed.

  Lemma inv_progress c : exec_is (map sy l) s <> None -> Inv c -> fst c = [] \/ exists c', astep es sy c c'.
  Proof.
    intros Hs HI. inversion HI as [A1 n' HR E|A1 P Q Y EQ HY HR E|A1 dn rest k sq S El Ex HR Hsq Hw E|A1 sq S w1 w2 Ex HR Er Hd E]; subst; simpl.
    - right. eexists. apply st_run. reflexivity.
    - destruct Y as [|p' Y].
      + inversion HY; subst. rewrite app_nil_r in EQ. subst P. simpl.
        destruct l as [|p1 l1] eqn:El; [left; auto|right]. rewrite <- El in *.
        assert (HX := ph2_run A1 [] p1 l1 0 [] s (body (nextq 0 p1) l1 ++ waits 0 l) El eq_refl). rewrite <- El in HX.
        destruct (HX HR (fun q (H : In q []) => match H with end) eq_refl eq_refl) as [_ H].
        replace (body 0 l) with (body 0 (p1 :: l1)) by (rewrite El; reflexivity). cbn [body app]. destruct (H Hs) as [[A' HA]|H']; auto. eexists. apply st_run. exact HA.
      + right. destruct (ph1_run A1 P Q Y p' _ EQ HY HR eq_refl) as (A2 & E3 & H). eexists. simpl. apply st_run. exact E3.
    - destruct rest as [|p1 rest].
      + cbn [body app]. rewrite app_nil_r in El. subst dn. rewrite Hw. simpl. rewrite app_nil_r.
        destruct (rev sq) as [|q0 w] eqn:Er; [left; auto|right].
        assert (Hin : In q0 sq) by (apply in_rev; rewrite Er; left; auto).
        destruct (r_sq _ _ _ _ _ _ _ HR q0 Hin) as [E|(b & n & E)].
        * eexists. simpl. apply st_run. simpl. rewrite E. reflexivity.
        * eexists. eapply st_send. exact E.
      + right. destruct (ph2_run A1 dn p1 rest k sq S (body (nextq k p1) rest ++ waits 0 l)) as [_ H]; auto.
        cbn [body app]. destruct (H Hs) as [[A' HA]|H']; auto. eexists. apply st_run. exact HA.
    - destruct w2 as [|q0 w2]; [left; auto|right].
      assert (Hin : In q0 sq) by (apply in_rev; rewrite Er; apply in_or_app; right; left; auto).
      destruct (r_sq _ _ _ _ _ _ _ HR q0 Hin) as [E|(b & n & E)].
      * eexists. simpl. apply st_run. simpl. rewrite E. reflexivity.
      * eexists. eapply st_send. exact E.
  Qed.
End Main.

(* runs are finite: each action is executed once, and each request completes once *)
Section Ends.
  Variable es : Z.
  Variable d : apar -> instr.
  Inductive nsteps : nat -> list apar * ast -> list apar * ast -> Prop :=
  | ns_0 c : nsteps 0 c c
  | ns_S n c c' c'' : nsteps n c c' -> astep es d c' c'' -> nsteps (S n) c c''.

  Definition pending (A : ast) (q : Z) : Prop := match x_rq A q with Some (RSend _ _) | Some (RRecv _ _ _) => True | _ => False end.

  Lemma remove_len q (x : list Z) : In q x -> (length (remove Z.eq_dec q x) < length x)%nat.
  Proof.
    induction x as [|y x IH]; intros H; [destruct H|]. simpl. destruct (Z.eq_dec q y).
    - pose proof (remove_length_le Z.eq_dec x q). lia.
    - destruct H as [H|H]; [congruence|]. apply IH in H. simpl. lia.
  Qed.

  Lemma nsteps_bound n prog s c : nsteps n (prog, initial s) c ->
    exists pend, (forall q, pending (snd c) q -> In q pend) /\ (n + length pend + 2 * length (fst c) <= 2 * length prog)%nat.
  Proof.
    remember (prog, initial s) as c0. intros H. revert Heqc0. induction H as [c|n c c1 c2 H IH HS]; intros ->.
    - exists []. split; [|simpl; lia]. intros q H. unfold pending in H. simpl in H. auto.
    - destruct (IH eq_refl) as (pend & HP & HL). destruct HS as [p l A A' HD|l A q b k Hq|l A q b k bs Hq Hl]; simpl in *.
      + destruct p; simpl in HD;
        try (destruct (exec_i _ _); [|discriminate]; injection HD as <-; exists pend; split; [exact HP|lia]).
        * injection HD as <-. exists pend. split; [exact HP|lia].
        * injection HD as <-. exists (req :: pend). simpl. split; [|lia]. intros q HH. unfold pending, setq in HH. simpl in HH.
          destruct (q =? req) eqn:E; [left; lia|right; apply HP; exact HH].
        * injection HD as <-. exists (req :: pend). simpl. split; [|lia]. intros q HH. unfold pending, setq in HH. simpl in HH.
          destruct (q =? req) eqn:E; [left; lia|right; apply HP; exact HH].
        * destruct (x_rq A req) as [[| |]|]; try discriminate. injection HD as <-. exists pend. split; [exact HP|lia].
      + exists (remove Z.eq_dec q pend). assert (Hin : In q pend) by (apply HP; unfold pending; rewrite Hq; auto).
        pose proof (remove_len _ _ Hin). split; [|lia]. intros q' H'. unfold pending, setq in H'. simpl in H'.
        destruct (q' =? q) eqn:E; [tauto|]. apply in_in_remove; [lia|]. apply HP. exact H'.
      + exists (remove Z.eq_dec q pend). assert (Hin : In q pend) by (apply HP; unfold pending; rewrite Hq; auto).
        pose proof (remove_len _ _ Hin). split; [|lia]. intros q' H'. unfold pending, setq in H'. simpl in H'.
        destruct (q' =? q) eqn:E; [tauto|]. apply in_in_remove; [lia|]. apply HP. exact H'.
  Qed.
End Ends.
