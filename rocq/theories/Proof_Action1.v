(* Deadlock freedom from a common order of all messages. *)
From Coq Require Import ZArith List Bool Lia Permutation Sorted ZifyBool.
From Verif Require Import Base Model_Transition Model_Action Spec_Action.
Import ListNotations.
Open Scope Z_scope.

Definition key := (Z * Z * Z * Z)%type.
Definition kle (x y : key) : Prop :=
  let '(a, b, c, d) := x in let '(a', b', c', d') := y in
  a < a' \/ (a = a' /\ (b < b' \/ (b = b' /\ (c < c' \/ (c = c' /\ d <= d'))))).
Definition ksrc (x : key) : Z := let '(_, _, c, _) := x in c.
Definition kdst (x : key) : Z := let '(_, _, _, d) := x in d.

Lemma kle_refl x : kle x x.
Proof. destruct x as [[[a b] c] d]. unfold kle. lia. Qed.
Lemma kle_trans x y z : kle x y -> kle y z -> kle x z.
Proof. destruct x as [[[a b] c] d], y as [[[a' b'] c'] d'], z as [[[a'' b''] c''] d'']. unfold kle. lia. Qed.
Lemma kle_total x y : kle x y \/ kle y x.
Proof. destruct x as [[[a b] c] d], y as [[[a' b'] c'] d']. unfold kle. lia. Qed.
Lemma kle_antisym x y : kle x y -> kle y x -> x = y.
Proof.
  destruct x as [[[a b] c] d], y as [[[a' b'] c'] d']. unfold kle. intros H1 H2.
  assert (a = a' /\ b = b' /\ c = c' /\ d = d') as (-> & -> & -> & ->) by lia. auto.
Qed.

(* a least key among those of finitely many processes *)
Lemma least_key (n : Z) (P : Z -> key -> Prop) (Q : Z -> Prop) :
  (forall p, 0 <= p < n -> Q p \/ exists k, P p k) ->
  (forall p, 0 <= p < n -> Q p) \/
  exists p k, 0 <= p < n /\ P p k /\ forall p' , 0 <= p' < n -> Q p' \/ exists k', P p' k' /\ kle k k'.
Proof.
  intros H. destruct (Z_lt_le_dec n 0) as [Hn|Hn]. { left. lia. }
  revert H. pattern n. apply natlike_ind; auto.
  - intros _. left. lia.
  - intros m Hm IH H. destruct IH as [IH|(p & k & Hp & HP & IH)].
    + intros p Hp. apply H. lia.
    + destruct (H m ltac:(lia)) as [Hq|[k Hk]].
      * left. intros p Hp. destruct (Z.eq_dec p m); [subst; auto|apply IH; lia].
      * right. exists m, k. split; [lia|]. split; [auto|]. intros p' Hp'.
        destruct (Z.eq_dec p' m); [subst; right; exists k; split; auto; apply kle_refl|left; apply IH; lia].
    + destruct (H m ltac:(lia)) as [Hq|[k2 Hk2]].
      * right. exists p, k. split; [lia|]. split; [auto|]. intros p' Hp'.
        destruct (Z.eq_dec p' m); [subst; auto|apply IH; lia].
      * right. destruct (kle_total k k2) as [Hle|Hle].
        -- exists p, k. split; [lia|]. split; [auto|]. intros p' Hp'.
           destruct (Z.eq_dec p' m); [subst; right; eauto|apply IH; lia].
        -- exists m, k2. split; [lia|]. split; [auto|]. intros p' Hp'.
           destruct (Z.eq_dec p' m).
           ++ subst. right. exists k2. split; auto. apply kle_refl.
           ++ destruct (IH p' ltac:(lia)) as [|[k' [H1 H2]]]; [auto|].
              right. exists k'. split; auto. eapply kle_trans; eauto.
Qed.

Lemma sends_not_local q a : sends_to q a = true -> local_only a = false.
Proof. unfold sends_to, local_only. destruct (a_par a); congruence. Qed.
Lemma recvs_not_local q a : recvs_from q a = true -> local_only a = false.
Proof. unfold recvs_from, local_only. destruct (a_par a); congruence. Qed.
Lemma coll_not_local a : collective a = true -> local_only a = false.
Proof. unfold collective, local_only. destruct (a_par a); congruence. Qed.
Lemma sends_not_recvs q q' a : sends_to q a = true -> recvs_from q' a = false.
Proof. unfold sends_to, recvs_from. destruct (a_par a); congruence. Qed.
Lemma recvs_not_sends q q' a : recvs_from q a = true -> sends_to q' a = false.
Proof. unfold sends_to, recvs_from. destruct (a_par a); congruence. Qed.
Lemma coll_not_sends q a : collective a = true -> sends_to q a = false.
Proof. unfold sends_to, collective. destruct (a_par a); congruence. Qed.
Lemma coll_not_recvs q a : collective a = true -> recvs_from q a = false.
Proof. unfold recvs_from, collective. destruct (a_par a); congruence. Qed.
Lemma sends_eq q q' a : sends_to q a = true -> sends_to q' a = (q =? q').
Proof. unfold sends_to. destruct (a_par a); try congruence; intros; lia. Qed.
Lemma recvs_eq q q' a : recvs_from q a = true -> recvs_from q' a = (q =? q').
Proof. unfold recvs_from. destruct (a_par a); try congruence; intros; lia. Qed.
Lemma sends_not_coll q a : sends_to q a = true -> collective a = false.
Proof. unfold sends_to, collective. destruct (a_par a); congruence. Qed.
Lemma recvs_not_coll q a : recvs_from q a = true -> collective a = false.
Proof. unfold recvs_from, collective. destruct (a_par a); congruence. Qed.
Lemma local_none a : local_only a = true -> collective a = false /\ (forall q, sends_to q a = false) /\ (forall q, recvs_from q a = false).
Proof. unfold sends_to, recvs_from, collective, local_only. destruct (a_par a); intros; try congruence; auto. Qed.

Definition comm (a : action) : bool := negb (local_only a).

Section Order.
  Variable n : Z.
  Variable prog : Z -> list action.
  Variable kf : Z -> action -> key.
  Hypothesis Hcls : forall p a, 0 <= p < n -> In a (prog p) ->
    local_only a = true \/ collective a = true \/
    exists q, 0 <= q < n /\ q <> p /\ (sends_to q a = true \/ recvs_from q a = true).
  Hypothesis Hks : forall p q a, 0 <= p < n -> 0 <= q < n -> In a (prog p) -> sends_to q a = true -> ksrc (kf p a) = p /\ kdst (kf p a) = q.
  Hypothesis Hkr : forall p q a, 0 <= p < n -> 0 <= q < n -> In a (prog p) -> recvs_from q a = true -> ksrc (kf p a) = q /\ kdst (kf p a) = p.
  Hypothesis Hkc : forall p a, 0 <= p < n -> In a (prog p) -> collective a = true -> ksrc (kf p a) = -1.
  Hypothesis Hsort : forall p, 0 <= p < n -> StronglySorted kle (map (kf p) (filter comm (prog p))).
  Hypothesis Hmsg : forall p q, 0 <= p < n -> 0 <= q < n -> p <> q ->
    map (kf p) (filter (sends_to q) (prog p)) = map (kf q) (filter (recvs_from p) (prog q)).
  Hypothesis Hcol : forall p q, 0 <= p < n -> 0 <= q < n ->
    map (kf p) (filter collective (prog p)) = map (kf q) (filter collective (prog q)).

  Record Inv (c : conf) (dn : Z -> list action) : Prop := {
    I_split : forall p, 0 <= p < n -> prog p = dn p ++ todo c p;
    I_sent : forall p q, 0 <= p < n -> 0 <= q < n -> p <> q -> filter (sends_to q) (dn p) = map fst (dlv c p q) ++ wire c p q;
    I_recv : forall p q, 0 <= p < n -> 0 <= q < n -> p <> q -> filter (recvs_from p) (dn q) = map snd (dlv c p q);
    I_coll : forall p q, 0 <= p < n -> 0 <= q < n -> length (filter collective (dn p)) = length (filter collective (dn q));
    I_self : forall p, wire c p p = [] }.

  Lemma inv_start : Inv (start prog) (fun _ => []).
  Proof. constructor; simpl; auto. Qed.

  Lemma filter1 {A} (f : A -> bool) a : filter f [a] = if f a then [a] else [].
  Proof. simpl. destruct (f a); auto. Qed.

  (* one process performs a local action *)
  Lemma inv_sync c c' dn : Inv c dn -> sync_step n c c' -> exists dn', Inv c' dn'.
  Proof.
    intros I S. inversion S as [p a l Hp Ht Hl | p q a b l m Hp Hq Hne Hta Hs Htb Hr Hw | p q a b m w Hp Hq Hne Htb Hr Hw | f Hf]; subst c'.
    - exists (set1 dn p (dn p ++ [a])). destruct (local_none a Hl) as (Lc & Ls & Lr).
      constructor; simpl; unfold set1; intros.
      + destruct (p0 =? p) eqn:E.
        * assert (p0 = p) by lia. subst. rewrite (I_split _ _ I p), Ht, <- app_assoc by lia. auto.
        * apply (I_split _ _ I); auto.
      + destruct (p0 =? p) eqn:E.
        * assert (p0 = p) by lia. subst. rewrite filter_app, filter1, Ls, app_nil_r. apply (I_sent _ _ I); auto.
        * apply (I_sent _ _ I); auto.
      + destruct (q =? p) eqn:E.
        * assert (q = p) by lia. subst. rewrite filter_app, filter1, Lr, app_nil_r. apply (I_recv _ _ I); auto.
        * apply (I_recv _ _ I); auto.
      + assert (G : forall p0, 0 <= p0 < n -> length (filter collective (if p0 =? p then dn p ++ [a] else dn p0)) = length (filter collective (dn p0))).
        { intros p1 Hp1. destruct (p1 =? p) eqn:E; auto. assert (p1 = p) by lia. subst. rewrite filter_app, filter1, Lc, app_nil_r. auto. }
        rewrite !G by auto. apply (I_coll _ _ I); auto.
      + apply (I_self _ _ I).
    - exists (set1 (set1 dn p (dn p ++ [a])) q (dn q ++ [b])).
      assert (Ed : forall x, set1 (set1 dn p (dn p ++ [a])) q (dn q ++ [b]) x = if x =? q then dn q ++ [b] else if x =? p then dn p ++ [a] else dn x) by (intros; reflexivity).
      constructor; simpl; intros; rewrite ?Ed; unfold set1, set2.
      + destruct (p0 =? q) eqn:E1; [|destruct (p0 =? p) eqn:E2].
        * assert (p0 = q) by lia. subst. rewrite (I_split _ _ I q), Htb, <- app_assoc by lia. auto.
        * assert (p0 = p) by lia. subst. rewrite (I_split _ _ I p), Hta, <- app_assoc by lia. auto.
        * apply (I_split _ _ I); auto.
      + destruct ((p0 =? p) && (q0 =? q)) eqn:E.
        * assert (p0 = p /\ q0 = q) as [-> ->] by lia. replace (p =? q) with false by lia. rewrite Z.eqb_refl.
          rewrite filter_app, filter1, Hs, (I_sent _ _ I p q) by auto. rewrite Hw, !app_nil_r, map_app. auto.
        * rewrite <- (I_sent _ _ I p0 q0) by auto. destruct (p0 =? q) eqn:E1; [|destruct (p0 =? p) eqn:E2; auto].
          -- assert (p0 = q) by lia. subst. rewrite filter_app, filter1, (recvs_not_sends _ q0 _ Hr), app_nil_r. auto.
          -- assert (p0 = p) by lia. subst. rewrite filter_app, filter1, (sends_eq _ q0 _ Hs). replace (q =? q0) with false by lia. rewrite app_nil_r. auto.
      + destruct ((p0 =? p) && (q0 =? q)) eqn:E.
        * assert (p0 = p /\ q0 = q) as [-> ->] by lia. rewrite Z.eqb_refl.
          rewrite filter_app, filter1, Hr, (I_recv _ _ I p q) by auto. rewrite map_app. auto.
        * rewrite <- (I_recv _ _ I p0 q0) by auto. destruct (q0 =? q) eqn:E1; [|destruct (q0 =? p) eqn:E2; auto].
          -- assert (q0 = q) by lia. subst. rewrite filter_app, filter1, (recvs_eq _ p0 _ Hr). replace (p =? p0) with false by lia. rewrite app_nil_r. auto.
          -- assert (q0 = p) by lia. subst. rewrite filter_app, filter1, (sends_not_recvs _ p0 _ Hs), app_nil_r. auto.
      + assert (G : forall x, 0 <= x < n -> length (filter collective (if x =? q then dn q ++ [b] else if x =? p then dn p ++ [a] else dn x)) = length (filter collective (dn x))).
        { intros x Hx. destruct (x =? q) eqn:E1; [|destruct (x =? p) eqn:E2; auto].
          - assert (x = q) by lia. subst. rewrite filter_app, filter1, (recvs_not_coll _ _ Hr), app_nil_r. auto.
          - assert (x = p) by lia. subst. rewrite filter_app, filter1, (sends_not_coll _ _ Hs), app_nil_r. auto. }
        rewrite !G by auto. apply (I_coll _ _ I); auto.
      + apply (I_self _ _ I).
    - exists (set1 dn q (dn q ++ [b])).
      constructor; simpl; unfold set1, set2; intros.
      + destruct (p0 =? q) eqn:E1.
        * assert (p0 = q) by lia. subst. rewrite (I_split _ _ I q), Htb, <- app_assoc by lia. auto.
        * apply (I_split _ _ I); auto.
      + destruct ((p0 =? p) && (q0 =? q)) eqn:E.
        * assert (p0 = p /\ q0 = q) as [-> ->] by lia. replace (p =? q) with false by lia.
          rewrite (I_sent _ _ I p q) by auto. rewrite Hw, map_app, <- app_assoc. auto.
        * rewrite <- (I_sent _ _ I p0 q0) by auto. destruct (p0 =? q) eqn:E1; auto.
          assert (p0 = q) by lia. subst. rewrite filter_app, filter1, (recvs_not_sends _ q0 _ Hr), app_nil_r. auto.
      + destruct ((p0 =? p) && (q0 =? q)) eqn:E.
        * assert (p0 = p /\ q0 = q) as [-> ->] by lia. rewrite Z.eqb_refl.
          rewrite filter_app, filter1, Hr, (I_recv _ _ I p q) by auto. rewrite map_app. auto.
        * rewrite <- (I_recv _ _ I p0 q0) by auto. destruct (q0 =? q) eqn:E1; auto.
          assert (q0 = q) by lia. subst. rewrite filter_app, filter1, (recvs_eq _ p0 _ Hr). replace (p =? p0) with false by lia. rewrite app_nil_r. auto.
      + assert (G : forall x, 0 <= x < n -> length (filter collective (if x =? q then dn q ++ [b] else dn x)) = length (filter collective (dn x))).
        { intros x Hx. destruct (x =? q) eqn:E1; auto.
          assert (x = q) by lia. subst. rewrite filter_app, filter1, (recvs_not_coll _ _ Hr), app_nil_r. auto. }
        rewrite !G by auto. apply (I_coll _ _ I); auto.
      + destruct ((p0 =? p) && (p0 =? q)) eqn:E; [exfalso; lia|apply (I_self _ _ I)].
    - exists (fun p => match todo c p with a :: _ => dn p ++ [a] | [] => dn p end).
      assert (Ed : forall x, 0 <= x < n -> exists a, todo c x = a :: f x /\ collective a = true) by exact Hf.
      constructor; simpl; intros.
      + replace ((0 <=? p) && (p <? n)) with true by lia. destruct (Ed p H) as (a & E & Hc). rewrite E.
        rewrite (I_split _ _ I p), E, <- app_assoc by lia. auto.
      + destruct (Ed p H) as (a & E & Hc). rewrite E. rewrite filter_app, filter1, (coll_not_sends _ _ Hc), app_nil_r. apply (I_sent _ _ I); auto.
      + destruct (Ed q H0) as (a & E & Hc). rewrite E. rewrite filter_app, filter1, (coll_not_recvs _ _ Hc), app_nil_r. apply (I_recv _ _ I); auto.
      + destruct (Ed p H) as (a & E & Hc). destruct (Ed q H0) as (a' & E' & Hc'). rewrite E, E'.
        rewrite !filter_app, !filter1, Hc, Hc', !app_length, (I_coll _ _ I p q) by auto. auto.
      + apply (I_self _ _ I).
  Qed.

  Lemma inv_buf c c' dn : Inv c dn -> buf_step n c c' -> exists dn', Inv c' dn'.
  Proof.
    intros I S. inversion S as [p q a l Hp Hq Hne Hta Hs]; subst c'.
    exists (set1 dn p (dn p ++ [a])).
    constructor; simpl; unfold set1, set2; intros.
    - destruct (p0 =? p) eqn:E1.
      + assert (p0 = p) by lia. subst. rewrite (I_split _ _ I p), Hta, <- app_assoc by lia. auto.
      + apply (I_split _ _ I); auto.
    - destruct ((p0 =? p) && (q0 =? q)) eqn:E.
      + assert (p0 = p /\ q0 = q) as [-> ->] by lia. rewrite Z.eqb_refl.
        rewrite filter_app, filter1, Hs, (I_sent _ _ I p q), app_assoc by auto. auto.
      + rewrite <- (I_sent _ _ I p0 q0) by auto. destruct (p0 =? p) eqn:E1; auto.
        assert (p0 = p) by lia. subst. rewrite filter_app, filter1, (sends_eq _ q0 _ Hs). replace (q =? q0) with false by lia. rewrite app_nil_r. auto.
    - rewrite <- (I_recv _ _ I p0 q0) by auto. destruct (q0 =? p) eqn:E1; auto.
      assert (q0 = p) by lia. subst. rewrite filter_app, filter1, (sends_not_recvs _ p0 _ Hs), app_nil_r. auto.
    - assert (G : forall x, 0 <= x < n -> length (filter collective (if x =? p then dn p ++ [a] else dn x)) = length (filter collective (dn x))).
      { intros x Hx. destruct (x =? p) eqn:E1; auto.
        assert (x = p) by lia. subst. rewrite filter_app, filter1, (sends_not_coll _ _ Hs), app_nil_r. auto. }
      rewrite !G by auto. apply (I_coll _ _ I); auto.
    - destruct ((p0 =? p) && (p0 =? q)) eqn:E; [exfalso; lia|apply (I_self _ _ I)].
  Qed.

  Lemma inv_run k c : run n (start prog) k c -> exists dn, Inv c dn.
  Proof.
    induction 1.
    - eexists. apply inv_start.
    - destruct IHrun as [dn I]. eapply inv_sync; eauto.
    - destruct IHrun as [dn I]. eapply inv_buf; eauto.
  Qed.

  (* the part of a list after a prefix *)
  Lemma map_skip {A B C} (f : A -> C) (g : B -> C) x1 x2 y1 y2 :
    map f (x1 ++ x2) = map g (y1 ++ y2) -> length x1 = length y1 -> map f x2 = map g y2.
  Proof.
    revert y1; induction x1; destruct y1; simpl; intros E L; try discriminate; auto.
    apply (IHx1 y1); congruence.
  Qed.

  Lemma sorted_head p a l : 0 <= p < n -> forall d, prog p = d ++ a :: l -> comm a = true ->
    forall b, In b (a :: l) -> comm b = true -> kle (kf p a) (kf p b).
  Proof.
    intros Hp d E Ha b Hb Cb. pose proof (Hsort p Hp) as S. rewrite E, filter_app, map_app in S.
    assert (S2 : StronglySorted kle (map (kf p) (filter comm (a :: l)))).
    { revert S. generalize (map (kf p) (filter comm d)). induction l0; simpl; auto. intros S. apply IHl0. inversion S; auto. }
    simpl in S2. rewrite Ha in S2. simpl in S2. inversion S2 as [|x y S3 F]; subst.
    destruct Hb as [<-|Hb]; [apply kle_refl|].
    rewrite Forall_forall in F. apply F. apply in_map. apply filter_In. auto.
  Qed.

  (* if no step is possible without buffering then everything is done *)
  Lemma progress c dn : Inv c dn -> (finished n c) \/ exists c', sync_step n c c'.
  Proof.
    intros I.
    destruct (least_key n (fun p k => exists a l, todo c p = a :: l /\ (local_only a = true \/ (comm a = true /\ k = kf p a))) (fun p => todo c p = [])) as [Hall|(p & k & Hp & (a & l & Ht & Hk) & Hmin)].
    { intros p Hp. destruct (todo c p) as [|a l] eqn:E; [auto|]. right. exists (kf p a), a, l. split; auto.
      unfold comm. destruct (local_only a); auto. }
    - left. split; [exact Hall|]. intros p q Hp Hq. destruct (Z.eq_dec p q) as [->|Hne]; [apply (I_self _ _ I)|].
      pose proof (I_split _ _ I p Hp) as Ep. pose proof (I_split _ _ I q Hq) as Eq. rewrite Hall, app_nil_r in Ep, Eq by auto.
      pose proof (Hmsg p q Hp Hq Hne) as M. rewrite Ep, Eq, (I_sent _ _ I p q), (I_recv _ _ I p q) in M by auto.
      apply (f_equal (@length _)) in M. rewrite !map_length, app_length, !map_length in M.
      destruct (wire c p q); auto. simpl in M. lia.
    - (* a local action at the head of any process can be done *)
      destruct (local_only a) eqn:La.
      { right. eexists. eapply S_local; eauto. }
      assert (Any : (exists p' a' l', 0 <= p' < n /\ todo c p' = a' :: l' /\ local_only a' = true) \/
                    forall p', 0 <= p' < n -> todo c p' = [] \/ exists a' l', todo c p' = a' :: l' /\ comm a' = true /\ kle (kf p a) (kf p' a')).
      { destruct Hk as [?|[_ ->]]; [congruence|].
        assert (D : forall m, 0 <= m -> (exists p' a' l', 0 <= p' < n /\ todo c p' = a' :: l' /\ local_only a' = true) \/ (forall p' a' l', 0 <= p' < m -> p' < n -> todo c p' = a' :: l' -> local_only a' = false)).
        { apply natlike_ind; [right; intros; lia|]. intros m Hm [IH|IH]; [auto|].
          destruct (todo c m) as [|a' l'] eqn:E.
          - right. intros p' a' l' H1 H2 H3. destruct (Z.eq_dec p' m); [subst; congruence|eapply IH; eauto; lia].
          - destruct (local_only a') eqn:L.
            + destruct (Z_lt_le_dec m n); [left; exists m, a', l'; auto|]. right. intros p' a2 l2 H1 H2 H3. eapply (IH p'); eauto. lia.
            + right. intros p' a2 l2 H1 H2 H3. destruct (Z.eq_dec p' m); [subst; congruence|eapply IH; eauto; lia]. }
        destruct (D n ltac:(lia)) as [D1|D1]; [auto|]. right. intros p' Hp'.
        destruct (Hmin p' Hp') as [|(k' & (a' & l' & E & [L|[L Ek]]) & Hle)]; [auto| |].
        - rewrite (D1 p' a' l') in L; try lia; auto; discriminate.
        - right. exists a', l'. subst. auto. }
      destruct Any as [(p' & a' & l' & Hp' & E & L)|Any].
      { right. eexists. eapply S_local; eauto. }
      right. clear Hmin Hk k.
      assert (Ca : comm a = true) by (unfold comm; rewrite La; auto).
      assert (Hin : In a (prog p)). { rewrite (I_split _ _ I p), Ht by auto. apply in_or_app. right. left. auto. }
      destruct (Hcls p a Hp Hin) as [?|[Hc|(q & Hq & Hne & [Hs|Hr])]]; [congruence| | |].
      + (* collective: all others are there, too *)
        exists (mkConf (fun p => if (0 <=? p) && (p <? n) then tl (todo c p) else todo c p) (wire c) (dlv c)).
        apply S_coll. intros p' Hp'.
        pose proof (Hcol p p' Hp Hp') as M. rewrite (I_split _ _ I p), (I_split _ _ I p') in M by auto.
        rewrite !filter_app in M.
        apply map_skip in M; [|apply (I_coll _ _ I); auto].
        rewrite Ht in M. simpl in M. rewrite Hc in M. simpl in M.
        destruct (filter collective (todo c p')) as [|b fl] eqn:Ef; [discriminate|].
        assert (Hb : In b (filter collective (todo c p'))) by (rewrite Ef; left; auto).
        apply filter_In in Hb. destruct Hb as [Hb Cb]. injection M as Mk _.
        destruct (Any p' Hp') as [En|(a' & l' & E & C' & Hle)]; [rewrite En in Hb; destruct Hb|].
        exists a'. rewrite E. split; [auto|].
        assert (Hle2 : kle (kf p' a') (kf p' b)).
        { eapply (sorted_head p' a' l' Hp' (dn p')); auto; [rewrite (I_split _ _ I p'), E by auto; auto|rewrite <- E; auto|unfold comm; rewrite coll_not_local; auto]. }
        rewrite <- Mk in Hle2. pose proof (kle_antisym _ _ Hle Hle2) as Ek.
        assert (Hin' : In a' (prog p')). { rewrite (I_split _ _ I p'), E by auto. apply in_or_app. right. left. auto. }
        destruct (Hcls p' a' Hp' Hin') as [?|[Hc'|(q & Hq & Hne & [Hs|Hr])]]; [unfold comm in C'; rewrite H in C'; discriminate|auto| |].
        * pose proof (Hkc p a Hp Hin Hc). destruct (Hks p' q a' Hp' Hq Hin' Hs). rewrite <- Ek in H0. lia.
        * pose proof (Hkc p a Hp Hin Hc). destruct (Hkr p' q a' Hp' Hq Hin' Hr). rewrite <- Ek in H0. lia.
      + (* the least action is a send from p to q *)
        pose proof (Hmsg p q Hp Hq ltac:(lia)) as M. rewrite (I_split _ _ I p), (I_split _ _ I q) in M by auto.
        rewrite !filter_app, (I_sent _ _ I p q), (I_recv _ _ I p q), Ht in M by auto.
        assert (Hb : exists b, In b (filter (recvs_from p) (todo c q)) /\ kf q b = kf p a \/ wire c p q <> [] /\ In b (filter (recvs_from p) (todo c q)) /\ kle (kf q b) (kf p a)).
        { rewrite <- !app_assoc in M. apply map_skip in M; [|rewrite !map_length; auto].
          destruct (wire c p q) as [|w ws] eqn:Ew.
          - cbn [filter app] in M. rewrite Hs in M. cbn [map] in M. destruct (filter (recvs_from p) (todo c q)) as [|b fl]; [discriminate|].
            exists b. left. split; [left; auto|]. cbn [map] in M. injection M; auto.
          - cbn [app map] in M. destruct (filter (recvs_from p) (todo c q)) as [|b fl]; [discriminate|].
            exists b. right. split; [congruence|]. split; [left; auto|]. cbn [map] in M. injection M as M1 M2. rewrite <- M1.
            (* w was sent before a *)
            assert (Hw : In w (dn p)). { apply (filter_In (sends_to q)). rewrite (I_sent _ _ I p q), Ew by auto. apply in_or_app. right. left. auto. }
            assert (Hws : sends_to q w = true). { assert (In w (filter (sends_to q) (dn p))) as Hf by (rewrite (I_sent _ _ I p q), Ew by auto; apply in_or_app; right; left; auto). apply filter_In in Hf. tauto. }
            destruct (in_split _ _ Hw) as (d1 & d2 & Ed).
            eapply (sorted_head p w (d2 ++ a :: l) Hp d1).
            + rewrite (I_split _ _ I p), Ht, Ed, <- app_assoc by auto. auto.
            + unfold comm. rewrite (sends_not_local _ _ Hws). auto.
            + right. apply in_or_app. right. left. auto.
            + auto. }
        assert (Hb' : exists b, In b (filter (recvs_from p) (todo c q)) /\ kle (kf q b) (kf p a)).
        { destruct Hb as (b & [[H1 H2]|(H1 & H2 & H3)]); exists b; split; auto. rewrite H2. apply kle_refl. }
        clear Hb. destruct Hb' as (b & Hbf & Hle2). apply filter_In in Hbf. destruct Hbf as [Hbi Hbr].
        destruct (Any q Hq) as [En|(a' & l' & E & C' & Hle)]; [rewrite En in Hbi; destruct Hbi|].
        assert (Hin' : In a' (prog q)). { rewrite (I_split _ _ I q), E by auto. apply in_or_app. right. left. auto. }
        assert (Hle3 : kle (kf q a') (kf q b)).
        { eapply (sorted_head q a' l' Hq (dn q)); auto; [rewrite (I_split _ _ I q), E by auto; auto|rewrite <- E; auto|unfold comm; rewrite (recvs_not_local _ _ Hbr); auto]. }
        pose proof (kle_antisym _ _ Hle (kle_trans _ _ _ Hle3 Hle2)) as Ek.
        destruct (Hks p q a Hp Hq Hin Hs) as [K1 K2].
        assert (R : recvs_from p a' = true).
        { destruct (Hcls q a' Hq Hin') as [Hl|[Hc'|(q' & Hq' & Hne' & [Hs'|Hr'])]]; [unfold comm in C'; rewrite Hl in C'; discriminate| | |].
          - pose proof (Hkc q a' Hq Hin' Hc'). rewrite <- Ek in *. lia.
          - destruct (Hks q q' a' Hq Hq' Hin' Hs'). rewrite <- Ek in *. lia.
          - destruct (Hkr q q' a' Hq Hq' Hin' Hr'). rewrite <- Ek in *. assert (Eqp : q' = p) by lia. rewrite Eqp in *. auto. }
        destruct (wire c p q) as [|w ws] eqn:Ew.
        * eexists. eapply (S_meet n c p q a a' l l'); auto.
        * eexists. eapply (S_arrive n c p q w a' l' ws); auto.
      + (* the least action is a receive of p from q *)
        destruct (wire c q p) as [|w ws] eqn:Ew.
        2:{ eexists. eapply (S_arrive n c q p w a l ws); eauto. }
        pose proof (Hmsg q p Hq Hp ltac:(lia)) as M. rewrite (I_split _ _ I p), (I_split _ _ I q) in M by auto.
        rewrite !filter_app, (I_sent _ _ I q p), (I_recv _ _ I q p), Ht, Ew, app_nil_r in M by auto.
        apply map_skip in M; [|rewrite !map_length; auto].
        cbn [filter] in M. rewrite Hr in M. cbn [map] in M.
        destruct (filter (sends_to p) (todo c q)) as [|b fl] eqn:Ef; [discriminate|]. injection M as M1 M2.
        assert (Hb : In b (filter (sends_to p) (todo c q))) by (rewrite Ef; left; auto).
        apply filter_In in Hb. destruct Hb as [Hb Hbs].
        destruct (Any q Hq) as [En|(a' & l' & E & C' & Hle)]; [rewrite En in Hb; destruct Hb|].
        assert (Hin' : In a' (prog q)). { rewrite (I_split _ _ I q), E by auto. apply in_or_app. right. left. auto. }
        assert (Hle3 : kle (kf q a') (kf q b)).
        { eapply (sorted_head q a' l' Hq (dn q)); auto; [rewrite (I_split _ _ I q), E by auto; auto|rewrite <- E; auto|unfold comm; rewrite (sends_not_local _ _ Hbs); auto]. }
        rewrite M1 in Hle3. pose proof (kle_antisym _ _ Hle Hle3) as Ek.
        destruct (Hkr p q a Hp Hq Hin Hr) as [K1 K2].
        assert (R : sends_to p a' = true).
        { destruct (Hcls q a' Hq Hin') as [Hl|[Hc'|(q' & Hq' & Hne' & [Hs'|Hr'])]]; [unfold comm in C'; rewrite Hl in C'; discriminate| | |].
          - pose proof (Hkc q a' Hq Hin' Hc'). rewrite <- Ek in *. lia.
          - destruct (Hks q q' a' Hq Hq' Hin' Hs'). rewrite <- Ek in *. assert (Eqp : q' = p) by lia. rewrite Eqp in *. auto.
          - destruct (Hkr q q' a' Hq Hq' Hin' Hr'). rewrite <- Ek in *. lia. }
        eexists. eapply (S_meet n c q p a' a l' l); auto.
  Qed.

  Lemma no_deadlock k c : run n (start prog) k c -> finished n c \/ exists c', sync_step n c c'.
  Proof. intros H. destruct (inv_run _ _ H) as [dn I]. eapply progress; eauto. Qed.

  Lemma combine_fs {A B} (l : list (A * B)) : combine (map fst l) (map snd l) = l.
  Proof. induction l as [|[a b] l IH]; simpl; congruence. Qed.

  (* at the end, messages were delivered in their order *)
  Lemma delivered k c : run n (start prog) k c -> finished n c ->
    forall p q, 0 <= p < n -> 0 <= q < n -> p <> q ->
      map fst (dlv c p q) = filter (sends_to q) (prog p) /\ map snd (dlv c p q) = filter (recvs_from p) (prog q).
  Proof.
    intros H [F1 F2] p q Hp Hq Hne. destruct (inv_run _ _ H) as [dn I].
    pose proof (I_split _ _ I p Hp) as Ep. pose proof (I_split _ _ I q Hq) as Eq. rewrite F1, app_nil_r in Ep, Eq by auto.
    rewrite Ep, Eq, (I_sent _ _ I p q), (I_recv _ _ I p q), F2, app_nil_r by auto. auto.
  Qed.
End Order.

(* number of steps *)
Lemma work_change n (f g : Z -> list action) :
  (forall p, 0 <= p < n -> (length (g p) <= length (f p))%nat) ->
  (exists p, 0 <= p < n /\ (length (g p) < length (f p))%nat) ->
  (list_sum (map (fun p => length (g (Z.of_nat p))) (seq 0 (Z.to_nat n))) <
   list_sum (map (fun p => length (f (Z.of_nat p))) (seq 0 (Z.to_nat n))))%nat.
Proof.
  intros Hle (p & Hp & Hlt).
  assert (Hi : In (Z.to_nat p) (seq 0 (Z.to_nat n))) by (apply in_seq; lia).
  assert (Hlt' : (length (g (Z.of_nat (Z.to_nat p))) < length (f (Z.of_nat (Z.to_nat p))))%nat) by (rewrite Z2Nat.id by lia; auto).
  assert (Hle' : forall x, In x (seq 0 (Z.to_nat n)) -> (length (g (Z.of_nat x)) <= length (f (Z.of_nat x)))%nat).
  { intros x Hx. apply in_seq in Hx. apply Hle. lia. }
  revert Hi Hlt' Hle'. generalize (Z.to_nat p) as i. generalize (seq 0 (Z.to_nat n)) as l. clear.
  induction l as [|x l IH]; simpl; intros i Hi Hlt Hle; [destruct Hi|].
  assert (L : (list_sum (map (fun p => length (g (Z.of_nat p))) l) <= list_sum (map (fun p => length (f (Z.of_nat p))) l))%nat).
  { clear -Hle. induction l; simpl; auto. pose proof (Hle a ltac:(simpl; auto)).
    assert ((list_sum (map (fun p => length (g (Z.of_nat p))) l) <= list_sum (map (fun p => length (f (Z.of_nat p))) l))%nat) by (apply IHl; intros y [->|Hy]; apply Hle; simpl; auto). lia. }
  pose proof (Hle x ltac:(auto)). destruct Hi as [->|Hi]; [lia|].
  assert ((list_sum (map (fun p => length (g (Z.of_nat p))) l) < list_sum (map (fun p => length (f (Z.of_nat p))) l))%nat) by (apply (IH i); auto). lia.
Qed.

Lemma step_work n c c' : 0 < n -> sync_step n c c' \/ buf_step n c c' -> (work n c' < work n c)%nat.
Proof.
  intros Hn [S|S]; unfold work.
  - inversion S as [p a l Hp Ht Hl | p q a b l m Hp Hq Hne Hta Hs Htb Hr Hw | p q a b m w Hp Hq Hne Htb Hr Hw | f Hf]; subst c'; match goal with |- (list_sum (map (fun p => length (todo ?c1 _)) _) < _)%nat => apply (work_change n (todo c) (todo c1)) end; cbn [todo].
    + intros x Hx. unfold set1. destruct (x =? p) eqn:E; auto. assert (x = p) by lia. subst. rewrite Ht. simpl. lia.
    + exists p. split; auto. unfold set1. rewrite Z.eqb_refl, Ht. simpl. lia.
    + intros x Hx. unfold set1. destruct (x =? q) eqn:E; [|destruct (x =? p) eqn:E2; auto].
      * assert (x = q) by lia. subst. rewrite Htb. simpl. lia.
      * assert (x = p) by lia. subst. rewrite Hta. simpl. lia.
    + exists q. split; auto. unfold set1. rewrite Z.eqb_refl, Htb. simpl. lia.
    + intros x Hx. unfold set1. destruct (x =? q) eqn:E; auto. assert (x = q) by lia. subst. rewrite Htb. simpl. lia.
    + exists q. split; auto. unfold set1. rewrite Z.eqb_refl, Htb. simpl. lia.
    + intros x Hx. replace ((0 <=? x) && (x <? n)) with true by lia. destruct (Hf x Hx) as (a & -> & _). simpl. lia.
    + exists 0. split; [lia|]. replace ((0 <=? 0) && (0 <? n)) with true by lia. destruct (Hf 0 ltac:(lia)) as (a & -> & _). simpl. lia.
  - inversion S as [p q a l Hp Hq Hne Hta Hs]; subst c'; match goal with |- (list_sum (map (fun p => length (todo ?c1 _)) _) < _)%nat => apply (work_change n (todo c) (todo c1)) end; cbn [todo].
    + intros x Hx. unfold set1. destruct (x =? p) eqn:E; auto. assert (x = p) by lia. subst. rewrite Hta. simpl. lia.
    + exists p. split; auto. unfold set1. rewrite Z.eqb_refl, Hta. simpl. lia.
Qed.

Lemma run_work n c0 k c : 0 < n -> run n c0 k c -> (k + work n c <= work n c0)%nat.
Proof.
  intros Hn. induction 1 as [|k c c' R IH S|k c c' R IH S]; [lia| |].
  - pose proof (step_work n c c' Hn (or_introl S)). lia.
  - pose proof (step_work n c c' Hn (or_intror S)). lia.
Qed.
