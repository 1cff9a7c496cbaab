(* The sequence with asynchronous messages: counts, requests, order. *)
From Coq Require Import ZArith List Bool Lia ZifyBool ZifyNat Permutation.
From Verif Require Import Base Model_Space Model_Mem Model_Transition Model_Action Model_ActionTrans Model_ActionExec Model_Async.
From Verif Require Import Spec_ActionTrans Spec_Async Proof_Type Proof_Comb3 Proof_Async1 Proof_Async2 Proof_Async3.
Import ListNotations.
Open Scope Z_scope.

Definition bsend (t : Z) (p : apar) : bool := match p with BufSend _ _ u => u =? t | _ => false end.
Definition brecv (f : Z) (p : apar) : bool := match p with BufRecv _ _ u => u =? f | _ => false end.
Definition isend (t : Z) (p : apar) : bool := match p with MpiIsend _ _ u _ => u =? t | _ => false end.
Definition irecv (f : Z) (p : apar) : bool := match p with MpiIrecv _ _ u _ => u =? f | _ => false end.
Definition cnt (f : apar -> bool) (l : list apar) : nat := length (filter f l).
Definition start_id (p : apar) : list Z := match p with MpiIsend _ _ _ q | MpiIrecv _ _ _ q => [q] | _ => [] end.
Definition start_ids (l : list apar) : list Z := flat_map start_id l.

Lemma cnt_app f a b : cnt f (a ++ b) = (cnt f a + cnt f b)%nat.
Proof. unfold cnt. rewrite filter_app, app_length. auto. Qed.
Lemma cnt_cons f a b : cnt f (a :: b) = ((if f a then 1 else 0) + cnt f b)%nat.
Proof. unfold cnt. simpl. destruct (f a); auto. Qed.
Lemma cnt_pos f l : (0 < cnt f l)%nat <-> exists a, In a l /\ f a = true.
Proof.
  unfold cnt. split.
  - intros H. destruct (filter f l) as [|a r] eqn:E; [simpl in H; lia|]. exists a. apply filter_In. rewrite E. left. auto.
  - intros (a & Ha & Fa). assert (I : In a (filter f l)) by (apply filter_In; auto). destruct (filter f l); [destruct I|simpl; lia].
Qed.
Lemma cnt_zero f l : (forall a, In a l -> f a = false) -> cnt f l = 0%nat.
Proof. intros H. destruct (Nat.eq_dec (cnt f l) 0) as [|Hn]; auto. destruct (proj1 (cnt_pos f l)) as (a & Ha & Fa); [lia|]. rewrite (H a Ha) in Fa. discriminate. Qed.
Lemma cnt_one f l : (cnt f l <= 1)%nat -> forall a b l1 l2, l = l1 ++ a :: l2 -> f a = true -> In b (l1 ++ l2) -> f b = false.
Proof.
  intros H a b l1 l2 -> Fa Hb. destruct (f b) eqn:Fb; auto. rewrite cnt_app, cnt_cons, Fa in H.
  assert (0 < cnt f (l1 ++ l2))%nat by (apply cnt_pos; eauto). rewrite cnt_app in H0. lia.
Qed.

Section Static.
  Variable l : list apar.
  Hypothesis Hpl : forall p, In p l -> ~ is_mpi p.

  Lemma posts_in : forall k q p, In p (posts q k) -> exists b c f i, p = MpiIrecv b c f i /\ In (BufRecv b c f) k.
  Proof.
    clear Hpl. induction k as [|x k IH]; intros q p H; [destruct H|]. cbn [posts] in H. apply in_app_or in H as [H|H].
    - destruct x; try destruct H as [<-|[]]; try destruct H. do 4 eexists. split; [reflexivity|left; reflexivity].
    - destruct (IH _ _ H) as (b & c & f & i & E & Hi). exists b, c, f, i. split; auto. right. auto.
  Qed.
  Lemma waits_in : forall k q p, In p (waits q k) -> exists i, p = MpiWait i.
  Proof.
    clear Hpl. induction k as [|x k IH]; intros q p H; [destruct H|]. cbn [waits] in H. apply in_app_or in H as [H|H]; eauto.
    destruct x; try destruct H as [<-|[]]; try destruct H. eauto.
  Qed.
  Lemma body_in : forall k q p, In p (body q k) -> (exists b c t i, p = MpiIsend b c t i /\ In (BufSend b c t) k) \/ (exists i, p = MpiWait i) \/
    (In p k /\ (forall b c t, p <> BufSend b c t) /\ (forall b c t, p <> BufRecv b c t)).
  Proof.
    clear Hpl. induction k as [|x k IH]; intros q p H; [destruct H|]. cbn [body] in H. destruct H as [H|H].
    - destruct x; subst p; try (right; right; split; [left; reflexivity|split; discriminate]); eauto.
      left. do 4 eexists. split; [reflexivity|left; reflexivity].
    - destruct (IH _ _ H) as [(b & c & t & i & E & Hi)|[Hi|(H1 & H2)]]; auto.
      + left. exists b, c, t, i. split; auto. right. auto.
      + right. right. split; auto. right. auto.
  Qed.
  (* which actions there are *)
  Lemma async_in p : In p (async_prog l) -> (exists n, p = MpiReq n) \/ (exists b c f i, p = MpiIrecv b c f i /\ In (BufRecv b c f) l) \/
    (exists b c t i, p = MpiIsend b c t i /\ In (BufSend b c t) l) \/ (exists i, p = MpiWait i) \/
    (In p l /\ ~ is_mpi p /\ (forall b c t, p <> BufSend b c t) /\ (forall b c t, p <> BufRecv b c t)).
  Proof.
    intros [<-|H]; eauto. rewrite !in_app_iff in H. destruct H as [H|[H|H]].
    - right. left. eapply posts_in; eauto.
    - destruct (body_in _ _ _ H) as [H1|[H1|(H1 & H2)]]; auto. do 4 right. auto.
    - do 3 right. left. eapply waits_in; eauto.
  Qed.
  Lemma posts_irecv f : forall k q, cnt (irecv f) (posts q k) = cnt (brecv f) k.
  Proof. clear. induction k as [|x k IH]; intros q; auto. cbn [posts]. rewrite cnt_app, IH, cnt_cons. destruct x; cbn [brecv irecv]; auto. rewrite cnt_cons. cbn [irecv]. unfold cnt at 1. simpl. lia. Qed.
  Lemma async_irecv f : cnt (irecv f) (async_prog l) = cnt (brecv f) l.
  Proof.
    unfold async_prog. rewrite cnt_cons. cbn [irecv]. rewrite !cnt_app, posts_irecv.
    rewrite (cnt_zero _ (body 0 l)), (cnt_zero _ (waits 0 l)); [lia| |].
    - intros a Ha. destruct (waits_in _ _ _ Ha) as (i & ->). auto.
    - intros a Ha. destruct (body_in _ _ _ Ha) as [(b & c & t & i & -> & _)|[(i & ->)|(H1 & _)]]; auto. specialize (Hpl a H1). destruct a; simpl in *; tauto.
  Qed.
  Lemma body_isend t : forall k q, (forall p, In p k -> ~ is_mpi p) -> cnt (isend t) (body q k) = cnt (bsend t) k.
  Proof.
    clear. induction k as [|x k IH]; intros q H; auto. cbn [body]. rewrite !cnt_cons, IH by (intros; apply H; right; auto).
    assert (Hx := H x (or_introl eq_refl)). destruct x; cbn [bsend isend] in *; auto. simpl in Hx. tauto.
  Qed.
  Lemma async_isend t : cnt (isend t) (async_prog l) = cnt (bsend t) l.
  Proof.
    unfold async_prog. rewrite cnt_cons. cbn [isend]. rewrite !cnt_app, body_isend by auto.
    rewrite (cnt_zero _ (posts 0 l)), (cnt_zero _ (waits 0 l)); [lia| |].
    - intros a Ha. destruct (waits_in _ _ _ Ha) as (i & ->). auto.
    - intros a Ha. destruct (posts_in _ _ _ Ha) as (b & c & f & i & -> & _). auto.
  Qed.

  Lemma start_req p q : In q (start_id p) -> req_of p = Some q.
  Proof. clear. destruct p; simpl; try tauto; intros [<-|[]]; auto. Qed.
  Lemma ids_starts lo hi x q : ids_in lo hi x -> In q (start_ids x) -> lo <= q < hi.
  Proof. clear. intros H Hq. apply in_flat_map in Hq as (p & Hp & Hq). apply (H p q Hp). apply start_req; auto. Qed.
  Lemma ids_nodup : forall k q, (forall p, In p k -> ~ is_mpi p) -> NoDup (start_ids (posts q k) ++ start_ids (body q k)).
  Proof.
    clear. induction k as [|x k IH]; intros q H; [constructor|]. assert (H' : forall p, In p k -> ~ is_mpi p) by (intros; apply H; right; auto). specialize (IH (nextq q x) H').
    cbn [posts body]. unfold start_ids in *. rewrite flat_map_app. cbn [flat_map].
    assert (Hx := H x (or_introl eq_refl)).
    assert (Hq : is_m x = true -> ~ In q (flat_map start_id (posts (nextq q x) k) ++ flat_map start_id (body (nextq q x) k))).
    { intros M Hi. apply in_app_or in Hi. destruct Hi as [Hi|Hi]; [apply (ids_starts _ _ _ _ (posts_ids k _)) in Hi|apply (ids_starts _ _ _ _ (body_ids k H' _)) in Hi]; unfold nextq in Hi; rewrite M in Hi; lia. }
    destruct x; simpl in Hx; try tauto; cbn [flat_map start_id app] in *; auto.
    - apply (Permutation_NoDup (Permutation_middle _ _ _)). constructor; auto.
    - constructor; auto.
  Qed.
  Lemma async_nodup : NoDup (start_ids (async_prog l)).
  Proof.
    unfold async_prog. change (start_ids (MpiReq _ :: ?r)) with (start_ids r). unfold start_ids. rewrite !flat_map_app.
    replace (flat_map start_id (waits 0 l)) with (@nil Z); [rewrite app_nil_r; apply ids_nodup; auto|].
    assert (H : forall p, In p (waits 0 l) -> start_id p = []) by (intros p Hp; destruct (waits_in _ _ _ Hp) as (i & ->); auto).
    clear - H. induction (waits 0 l) as [|a r IH]; auto. cbn [flat_map]. rewrite (H a) by (left; auto). apply IH. intros; apply H; right; auto.
  Qed.

  Lemma app_split {T} (x : T) b c : forall a d, a ++ x :: b = c ++ d -> ~ In x c -> exists a', a = c ++ a' /\ d = a' ++ x :: b.
  Proof.
    clear. induction c as [|y c IH]; intros a d E N; [exists a; auto|]. destruct a as [|z a].
    - injection E as <- E. exfalso. apply N. left. auto.
    - injection E as -> E. destruct (IH a d E) as (a' & -> & ->); [intros H; apply N; right; auto|]. exists a'. auto.
  Qed.
  Lemma wait_split pre q r : async_prog l = pre ++ MpiWait q :: r -> exists pre', body 0 l ++ waits 0 l = pre' ++ MpiWait q :: r.
  Proof.
    unfold async_prog. intros E. change (MpiReq ?n :: ?a ++ ?b) with ((MpiReq n :: a) ++ b) in E. symmetry in E. apply app_split in E.
    - destruct E as (a & _ & E). eauto.
    - intros [H|H]; [discriminate|]. destruct (posts_in _ _ _ H) as (b & c & f & i & E' & _). discriminate.
  Qed.
  (* all receives are started before waiting *)
  Lemma wait_posted pre q r f : async_prog l = pre ++ MpiWait q :: r -> cnt (irecv f) r = 0%nat.
  Proof.
    intros E. apply wait_split in E as (a & E). assert (Z0 : cnt (irecv f) (body 0 l ++ waits 0 l) = 0%nat).
    { apply cnt_zero. intros x Hx. apply in_app_or in Hx. destruct Hx as [Hx|Hx].
      - destruct (body_in _ _ _ Hx) as [(b & c & t & i & -> & _)|[(i & ->)|(H1 & _)]]; auto. specialize (Hpl x H1). destruct x; simpl in *; tauto.
      - destruct (waits_in _ _ _ Hx) as (i & ->). auto. }
    rewrite E, cnt_app, cnt_cons in Z0. cbn [irecv] in Z0. lia.
  Qed.
  Lemma body_at : forall k q i a r, (forall p, In p k -> ~ is_mpi p) -> body q k = a ++ MpiWait i :: r ->
    exists dn b c f rest, k = dn ++ BufRecv b c f :: rest /\ i = q + msgs dn /\ r = body (i + 1) rest.
  Proof.
    clear. induction k as [|x k IH]; intros q i a r H E; [destruct a; discriminate|]. cbn [body] in E. destruct a as [|y a].
    - injection E as E1 E2. assert (Hx := H x (or_introl eq_refl)). destruct x; simpl in Hx; try tauto; try discriminate.
      injection E1 as <-. exists [], buf, count, from, k. split; auto. split; [unfold msgs; simpl; lia|]. symmetry. exact E2.
    - injection E as _ E. destruct (IH _ _ _ _ (fun p Hp => H p (or_intror Hp)) E) as (dn & b & c & f & rest & -> & E1 & E2). exists (x :: dn), b, c, f, rest. split; auto. split; auto.
      rewrite E1. apply nextq_msgs.
  Qed.
  (* waiting before a send: for a receive before the send *)
  Lemma wait_before pre q r t : async_prog l = pre ++ MpiWait q :: r -> (0 < cnt (isend t) r)%nat ->
    exists dn b c f rest, l = dn ++ BufRecv b c f :: rest /\ q = msgs dn /\ (0 < cnt (bsend t) rest)%nat.
  Proof.
    intros E Hc. apply wait_split in E as (a & E).
    assert (W : forall x, In x (waits 0 l) -> isend t x = false) by (intros x Hx; destruct (waits_in _ _ _ Hx) as (i & ->); auto).
    assert (X : exists r', body 0 l = a ++ MpiWait q :: r' /\ r = r' ++ waits 0 l).
    { revert W Hc E. generalize (waits 0 l), (body 0 l). clear. intros w b W Hc. revert a. induction b as [|y b IH]; intros a E.
      - exfalso. simpl in E. assert (cnt (isend t) w = 0%nat) by (apply cnt_zero; auto). rewrite E, cnt_app, cnt_cons in H. lia.
      - destruct a as [|z a]; injection E as E1 E.
        + subst. exists b. auto.
        + destruct (IH a E) as (r' & -> & ->). subst. exists r'. auto. }
    destruct X as (r' & E1 & ->). destruct (body_at _ _ _ _ _ Hpl E1) as (dn & b & c & f & rest & El & Eq & ->). exists dn, b, c, f, rest. split; auto. split; [lia|].
    rewrite cnt_app, (cnt_zero _ (waits 0 l)) in Hc by auto. rewrite body_isend in Hc; [lia|]. intros p Hp. apply Hpl. rewrite El. apply in_or_app. right. right. auto.
  Qed.
  Lemma irecv_at dn b c f rest b' c' f' : l = dn ++ BufRecv b c f :: rest -> In (MpiIrecv b' c' f' (msgs dn)) (async_prog l) -> f' = f.
  Proof.
    intros El H. assert (H' : In (MpiIrecv b' c' f' (msgs dn)) (posts 0 l)).
    { destruct H as [H|H]; [discriminate|]. rewrite !in_app_iff in H. destruct H as [H|[H|H]]; auto; exfalso.
      - destruct (body_in _ _ _ H) as [(b1 & c1 & t & i & E & _)|[(i & E)|(H1 & _)]]; try discriminate. apply (Hpl _ H1). exact I.
      - destruct (waits_in _ _ _ H) as (i & E). discriminate. }
    rewrite El, posts_app in H'. cbn [posts] in H'. rewrite !in_app_iff in H'. destruct H' as [H'|[H'|H']].
    - pose proof (posts_ids dn 0 _ _ H' eq_refl). lia.
    - destruct H' as [H'|[]]. injection H' as _ _ H'. auto.
    - pose proof (posts_ids rest _ _ _ H' eq_refl) as K. unfold nextq in K. cbn [is_m] in K. lia.
  Qed.
End Static.
