(* The order of the actions of a transition with the TCP2 backend. *)
From Coq Require Import ZArith List Bool Lia ZifyBool ZifyNat Sorted Permutation.
From Verif Require Import Base ListFacts Model_Space Model_RangeList Model_Mem Model_Transition Model_Data Model_Action Model_ActionTrans Model_Switch.
From Verif Require Import Spec_RangeList Spec_Action.
From Verif Require Import Proof_RangeList5 Proof_Action2 Proof_Action3 Proof_Action4 Proof_Tcp2Exec4.
Import ListNotations.
Open Scope Z_scope.

Lemma zrange_cons a b : a < b -> zrange a b = a :: zrange (a + 1) b.
Proof.
  intros H. unfold zrange. replace (Z.to_nat (b - a)) with (S (Z.to_nat (b - (a + 1)))) by lia. cbn [seq map]. f_equal; [lia|].
  rewrite <- seq_shift, map_map. apply map_ext. intros. lia.
Qed.
Lemma zrange_nil a b : b <= a -> zrange a b = [].
Proof. intros H. unfold zrange. replace (Z.to_nat (b - a)) with 0%nat by lia. reflexivity. Qed.
Lemma zrange_split a b c : a <= b <= c -> zrange a c = zrange a b ++ zrange b c.
Proof.
  intros H. unfold zrange. replace (Z.to_nat (c - a)) with (Z.to_nat (b - a) + Z.to_nat (c - b))%nat by lia. rewrite seq_app, map_app. f_equal.
  cbn [plus]. rewrite <- (Nat.add_0_r (Z.to_nat (b - a))) at 1.
  assert (X : forall n k, seq (n + 0) k = map (fun i => (n + i)%nat) (seq 0 k)) by (intros n; induction n; intros k; [rewrite map_id; reflexivity|cbn [plus]; rewrite <- seq_shift, IHn, map_map; reflexivity]).
  rewrite X, map_map. apply map_ext. intros. lia.
Qed.
Lemma zrange_shift a b : zrange a b = map (fun j => a + j) (zrange 0 (b - a)).
Proof. unfold zrange. rewrite map_map. replace (b - a - 0) with (b - a) by lia. apply map_ext. intros. lia. Qed.

(* a list sorted by keys *)
Lemma by_keys {A} (K : A -> Z) (l : list A) : forall lo hi, StronglySorted (fun a b => K a <= K b) l -> (forall a, In a l -> lo <= K a < hi) ->
  l = flat_map (fun c => filter (fun a => K a =? c) l) (zrange lo hi).
Proof.
  intros lo hi. remember (Z.to_nat (hi - lo)) as len eqn:El. revert lo l El. induction len as [|len IH]; intros lo l El S H.
  - rewrite zrange_nil by lia. destruct l as [|a l]; auto. pose proof (H a (or_introl eq_refl)). lia.
  - rewrite zrange_cons by lia. cbn [flat_map].
    assert (E1 : l = filter (fun a => K a =? lo) l ++ filter (fun a => lo <? K a) l).
    { clear IH El. induction S as [|a l S IH F]; auto. cbn [filter]. pose proof (H a (or_introl eq_refl)) as Ha.
      assert (H' : forall b, In b l -> lo <= K b < hi) by (intros; apply H; right; auto). specialize (IH H'). destruct (K a =? lo) eqn:E.
      - replace (lo <? K a) with false by lia. cbn [app]. f_equal. exact IH.
      - replace (lo <? K a) with true by lia. rewrite Forall_forall in F.
        assert (X1 : filter (fun a => K a =? lo) l = []). { clear - F E Ha. induction l as [|b l IH]; auto. cbn [filter]. pose proof (F b (or_introl eq_refl)). replace (K b =? lo) with false by lia. apply IH. intros; apply F; right; auto. }
        rewrite X1 in IH. cbn [app] in IH. rewrite X1. cbn [app]. f_equal. exact IH. }
    rewrite E1 at 1. f_equal. rewrite (IH (lo + 1) (filter (fun a => lo <? K a) l)) at 1.
    + apply flat_map_ext_in. intros c Hc. apply zrange_in in Hc. rewrite filter_filter. apply filter_ext_in'. intros a _. lia.
    + lia.
    + apply ss_filter; auto.
    + intros a Ha. apply filter_In in Ha. destruct Ha as [Ha1 Ha2]. pose proof (H a Ha1). lia.
Qed.

Lemma filter_none {A} (f : A -> bool) l : (forall x, In x l -> f x = false) -> filter f l = [].
Proof. induction l as [|a l IH]; intros H; auto. cbn [filter]. rewrite (H a (or_introl eq_refl)). apply IH. intros; apply H; right; auto. Qed.
Lemma filter_all {A} (f : A -> bool) l : (forall x, In x l -> f x = true) -> filter f l = l.
Proof. induction l as [|a l IH]; intros H; auto. cbn [filter]. rewrite (H a (or_introl eq_refl)). f_equal. apply IH. intros; apply H; right; auto. Qed.
Lemma flat_none {A B} (f : A -> list B) l : (forall x, In x l -> f x = []) -> flat_map f l = [].
Proof. induction l as [|a l IH]; intros H; auto. cbn [flat_map]. rewrite (H a (or_introl eq_refl)). apply IH. intros; apply H; right; auto. Qed.

Definition by_peer (l : list action) (r : list Z) : list action := flat_map (fun s => filter (fun a => peer0 a =? s) l) r.

Section Order.
  Variable p N : Z.
  Hypothesis Hp : 0 <= p < N.
  Variable q : list aptr -> list aptr.
  Hypothesis Q : is_qsort (cmp2phase p) q.
  Variables reds sends recvs : list action.
  Hypothesis H1 : Forall (fun a => a_round a = 0 /\ isSend a = false /\ isRecv a = false /\ not_nop a = true) reds.
  Hypothesis H2 : Forall (fun a => a_round a = 0 /\ isSend a = true /\ 0 <= peer0 a < N /\ peer0 a <> p) sends.
  Hypothesis H3 : Forall (fun a => a_round a = 0 /\ isSend a = false /\ isRecv a = true /\ 0 <= peer0 a < N /\ peer0 a <> p) recvs.
  Let l := reds ++ sends ++ recvs.
  Let K (a : action) : Z := phase2 p a * N + (if phase2 p a =? 0 then 0 else peer0 a).

  Lemma phase_r a : In a reds -> phase2 p a = 0.
  Proof. intros H. rewrite Forall_forall in H1. destruct (H1 a H) as (_ & A & B & _). unfold phase2. rewrite A, B. auto. Qed.
  Lemma phase_s a : In a sends -> phase2 p a = (if peer0 a <? p then 3 else 2) /\ 0 <= peer0 a < N /\ peer0 a <> p.
  Proof. intros H. rewrite Forall_forall in H2. destruct (H2 a H) as (_ & A & B & C). unfold phase2. rewrite A. auto. Qed.
  Lemma phase_v a : In a recvs -> phase2 p a = (if peer0 a <? p then 1 else 4) /\ 0 <= peer0 a < N /\ peer0 a <> p.
  Proof. intros H. rewrite Forall_forall in H3. destruct (H3 a H) as (_ & A & B & C & D). unfold phase2. rewrite A, B. auto. Qed.
  Lemma key_facts a : In a l -> a_round a = 0 /\ not_nop a = true /\ 0 <= phase2 p a <= 4 /\ (phase2 p a <> 0 -> 0 <= peer0 a < N).
  Proof.
    intros H. unfold l in H. rewrite !in_app_iff in H. destruct H as [H|[H|H]].
    - rewrite (phase_r a H). rewrite Forall_forall in H1. destruct (H1 a H) as (A & B & C & D). split; auto. split; auto. split; [lia|congruence].
    - destruct (phase_s a H) as (A & B & C). rewrite Forall_forall in H2. destruct (H2 a H) as (A0 & B0 & _). split; auto. split.
      + unfold isSend in B0. unfold not_nop. destruct (a_par a); auto; discriminate.
      + split; [destruct (peer0 a <? p); lia|auto].
    - destruct (phase_v a H) as (A & B & C). rewrite Forall_forall in H3. destruct (H3 a H) as (A0 & B0 & C0 & _). split; auto. split.
      + unfold isRecv in C0. unfold not_nop. destruct (a_par a); auto; discriminate.
      + split; [destruct (peer0 a <? p); lia|auto].
  Qed.
  Lemma key_range a : In a l -> 0 <= K a < 5 * N.
  Proof. intros H. destruct (key_facts a H) as (_ & _ & A & B). unfold K. destruct (phase2 p a =? 0) eqn:E; [nia|]. specialize (B ltac:(lia)). nia. Qed.
  Lemma cmp_key x y : In (snd x) l -> In (snd y) l -> cmp2phase p x y <= 0 -> K (snd x) <= K (snd y) /\ (K (snd x) = K (snd y) -> fst x <= fst y).
  Proof.
    intros Hx Hy Hc. destruct (key_facts _ Hx) as (A1 & _ & A2 & A3). destruct (key_facts _ Hy) as (B1 & _ & B2 & B3). unfold cmp2phase in Hc. rewrite A1, B1 in Hc. change (negb (0 =? 0)) with false in Hc. cbv iota in Hc. unfold K.
    remember (phase2 p (snd x)) as a. remember (phase2 p (snd y)) as b. clear Heqa Heqb.
    destruct (a =? b) eqn:Eab; cbn [negb] in Hc; cbv iota in Hc.
    - assert (a = b) by lia. subst b. destruct (a =? 0) eqn:Ea; [replace (a >? 0) with false in Hc by lia; cbn [andb] in Hc; cbv iota in Hc; lia|].
      specialize (A3 ltac:(lia)). specialize (B3 ltac:(lia)). replace (a >? 0) with true in Hc by lia. cbn [andb] in Hc.
      destruct (peer0 (snd x) =? peer0 (snd y)) eqn:Ep; cbn [negb] in Hc; cbv iota in Hc; lia.
    - assert (a < b) by lia. assert (a * N + N <= b * N) by nia. destruct (a =? 0) eqn:Ea; destruct (b =? 0) eqn:Eb; try (specialize (A3 ltac:(lia))); try (specialize (B3 ltac:(lia))); lia.
  Qed.

  Definition order2 : list action := reds ++ by_peer recvs (zrange 0 p) ++ by_peer sends (zrange (p + 1) N) ++ by_peer sends (zrange 0 p) ++ by_peer recvs (zrange (p + 1) N).

  Let kf (c : Z) := filter (fun a => K a =? c) l.
  Lemma kf_app c : kf c = filter (fun a => K a =? c) reds ++ filter (fun a => K a =? c) sends ++ filter (fun a => K a =? c) recvs.
  Proof. unfold kf, l. rewrite !filter_app. auto. Qed.
  (* the part of a phase *)
  Lemma key_ph ph j a : 0 <= phase2 p a -> (phase2 p a <> 0 -> 0 <= peer0 a < N) -> 0 <= j < N -> (K a =? ph * N + j) = (phase2 p a =? ph) && ((if phase2 p a =? 0 then 0 else peer0 a) =? j).
  Proof.
    intros Ha Hr Hj. unfold K. remember (phase2 p a) as x. clear Heqx.
    assert (Hi : 0 <= (if x =? 0 then 0 else peer0 a) < N) by (destruct (x =? 0) eqn:E; [lia|apply Hr; lia]). remember (if x =? 0 then 0 else peer0 a) as y. clear Heqy Hr.
    destruct (x =? ph) eqn:E; cbn [andb]; [lia|]. assert (x < ph \/ ph < x) as [C|C] by lia; nia.
  Qed.
  Lemma part ph (Hph : 0 <= ph) : flat_map kf (zrange (ph * N) (ph * N + N)) = flat_map (fun j => filter (fun a => (phase2 p a =? ph) && ((if phase2 p a =? 0 then 0 else peer0 a) =? j)) l) (zrange 0 N).
  Proof.
    rewrite zrange_shift. replace (ph * N + N - ph * N) with N by lia. rewrite flat_map_concat_map, map_map, <- flat_map_concat_map.
    apply flat_map_ext_in. intros j Hj. apply zrange_in in Hj. unfold kf. apply filter_ext_in'. intros a Ha. destruct (key_facts a Ha) as (_ & _ & A & B). apply key_ph; auto; lia.
  Qed.
  Lemma flat_two {B} (f g h : Z -> list B) c : 0 <= c <= N -> (forall j, 0 <= j < c -> f j = g j) -> (forall j, c <= j < N -> f j = h j) -> flat_map f (zrange 0 N) = flat_map g (zrange 0 c) ++ flat_map h (zrange c N).
  Proof.
    intros Hc E1 E2. rewrite (zrange_split 0 c N) by lia. rewrite flat_map_app. f_equal; apply flat_map_ext_in; intros j Hj; apply zrange_in in Hj; auto.
  Qed.

  Lemma order_eq : flat_map kf (zrange 0 (5 * N)) = order2.
  Proof.
    rewrite (zrange_split 0 (0 * N + N) (5 * N)) by lia. rewrite (zrange_split (0 * N + N) (1 * N + N) (5 * N)) by lia. rewrite (zrange_split (1 * N + N) (2 * N + N) (5 * N)) by lia. rewrite (zrange_split (2 * N + N) (3 * N + N) (5 * N)) by lia.
    replace (zrange 0 (0 * N + N)) with (zrange (0 * N) (0 * N + N)) by (f_equal; lia). replace (zrange (0 * N + N) (1 * N + N)) with (zrange (1 * N) (1 * N + N)) by (f_equal; lia).
    replace (zrange (1 * N + N) (2 * N + N)) with (zrange (2 * N) (2 * N + N)) by (f_equal; lia). replace (zrange (2 * N + N) (3 * N + N)) with (zrange (3 * N) (3 * N + N)) by (f_equal; lia).
    replace (zrange (3 * N + N) (5 * N)) with (zrange (4 * N) (4 * N + N)) by (f_equal; lia).
    rewrite !flat_map_app, !part by lia. unfold order2.
    f_equal; [|f_equal; [|f_equal; [|f_equal]]].
    - rewrite (zrange_cons 0 N) by lia. cbn [flat_map]. rewrite flat_none.
      + rewrite app_nil_r. unfold l. rewrite !filter_app. rewrite (filter_all _ reds) by (intros a Ha; rewrite (phase_r a Ha); reflexivity).
        rewrite (filter_none _ sends), (filter_none _ recvs), app_nil_r; auto; intros a Ha; [destruct (phase_v a Ha) as (E & _)|destruct (phase_s a Ha) as (E & _)]; rewrite E; destruct (peer0 a <? p); reflexivity.
      + intros j Hj. apply zrange_in in Hj. apply filter_none. intros a Ha. destruct (phase2 p a =? 0) eqn:E; cbn [andb]; lia.
    - rewrite (flat_two _ (fun s => filter (fun a => peer0 a =? s) recvs) (fun _ => []) p); [|lia| |].
      + rewrite (flat_none (fun _ => [])) by auto. rewrite app_nil_r. reflexivity.
      + intros j Hj. unfold l. rewrite !filter_app. rewrite (filter_none _ reds), (filter_none _ sends); cbn [app].
        * apply filter_ext_in'. intros a Ha. destruct (phase_v a Ha) as (E & E1 & E2). rewrite E. destruct (peer0 a <? p) eqn:El.
          -- reflexivity.
          -- change (4 =? 1) with false. cbn [andb]. lia.
        * intros a Ha. destruct (phase_s a Ha) as (E & _). rewrite E. destruct (peer0 a <? p); reflexivity.
        * intros a Ha. rewrite (phase_r a Ha). reflexivity.
      + intros j Hj. apply filter_none. intros a Ha. unfold l in Ha. rewrite !in_app_iff in Ha. destruct Ha as [Ha|[Ha|Ha]].
        * rewrite (phase_r a Ha). reflexivity.
        * destruct (phase_s a Ha) as (E & _). rewrite E. destruct (peer0 a <? p); reflexivity.
        * destruct (phase_v a Ha) as (E & E1 & E2). rewrite E. destruct (peer0 a <? p) eqn:El; [|reflexivity]. change (1 =? 0) with false. change (1 =? 1) with true. cbn [andb]. cbv iota. lia.
    - rewrite (flat_two _ (fun _ => []) (fun s => filter (fun a => peer0 a =? s) sends) (p + 1)); [|lia| |].
      + rewrite (flat_none (fun _ => [])) by auto. reflexivity.
      + intros j Hj. apply filter_none. intros a Ha. unfold l in Ha. rewrite !in_app_iff in Ha. destruct Ha as [Ha|[Ha|Ha]].
        * rewrite (phase_r a Ha). reflexivity.
        * destruct (phase_s a Ha) as (E & E1 & E2). rewrite E. destruct (peer0 a <? p) eqn:El; [reflexivity|]. change (2 =? 0) with false. change (2 =? 2) with true. cbn [andb]. cbv iota. lia.
        * destruct (phase_v a Ha) as (E & _). rewrite E. destruct (peer0 a <? p); reflexivity.
      + intros j Hj. unfold l. rewrite !filter_app. rewrite (filter_none _ reds), (filter_none _ recvs), app_nil_r; cbn [app].
        * apply filter_ext_in'. intros a Ha. destruct (phase_s a Ha) as (E & E1 & E2). rewrite E. destruct (peer0 a <? p) eqn:El.
          -- change (3 =? 2) with false. cbn [andb]. lia.
          -- reflexivity.
        * intros a Ha. destruct (phase_v a Ha) as (E & _). rewrite E. destruct (peer0 a <? p); reflexivity.
        * intros a Ha. rewrite (phase_r a Ha). reflexivity.
    - rewrite (flat_two _ (fun s => filter (fun a => peer0 a =? s) sends) (fun _ => []) p); [|lia| |].
      + rewrite (flat_none (fun _ => [])) by auto. rewrite app_nil_r. reflexivity.
      + intros j Hj. unfold l. rewrite !filter_app. rewrite (filter_none _ reds), (filter_none _ recvs), app_nil_r; cbn [app].
        * apply filter_ext_in'. intros a Ha. destruct (phase_s a Ha) as (E & E1 & E2). rewrite E. destruct (peer0 a <? p) eqn:El.
          -- reflexivity.
          -- change (2 =? 3) with false. cbn [andb]. lia.
        * intros a Ha. destruct (phase_v a Ha) as (E & _). rewrite E. destruct (peer0 a <? p); reflexivity.
        * intros a Ha. rewrite (phase_r a Ha). reflexivity.
      + intros j Hj. apply filter_none. intros a Ha. unfold l in Ha. rewrite !in_app_iff in Ha. destruct Ha as [Ha|[Ha|Ha]].
        * rewrite (phase_r a Ha). reflexivity.
        * destruct (phase_s a Ha) as (E & E1 & E2). rewrite E. destruct (peer0 a <? p) eqn:El; [|reflexivity]. change (3 =? 0) with false. change (3 =? 3) with true. cbn [andb]. cbv iota. lia.
        * destruct (phase_v a Ha) as (E & _). rewrite E. destruct (peer0 a <? p); reflexivity.
    - rewrite (flat_two _ (fun _ => []) (fun s => filter (fun a => peer0 a =? s) recvs) (p + 1)); [|lia| |].
      + rewrite (flat_none (fun _ => [])) by auto. reflexivity.
      + intros j Hj. apply filter_none. intros a Ha. unfold l in Ha. rewrite !in_app_iff in Ha. destruct Ha as [Ha|[Ha|Ha]].
        * rewrite (phase_r a Ha). reflexivity.
        * destruct (phase_s a Ha) as (E & _). rewrite E. destruct (peer0 a <? p); reflexivity.
        * destruct (phase_v a Ha) as (E & E1 & E2). rewrite E. destruct (peer0 a <? p) eqn:El; [reflexivity|]. change (4 =? 0) with false. change (4 =? 4) with true. cbn [andb]. cbv iota. lia.
      + intros j Hj. unfold l. rewrite !filter_app. rewrite (filter_none _ reds), (filter_none _ sends); cbn [app].
        * apply filter_ext_in'. intros a Ha. destruct (phase_v a Ha) as (E & E1 & E2). rewrite E. destruct (peer0 a <? p) eqn:El.
          -- change (1 =? 4) with false. cbn [andb]. lia.
          -- reflexivity.
        * intros a Ha. destruct (phase_s a Ha) as (E & _). rewrite E. destruct (peer0 a <? p); reflexivity.
        * intros a Ha. rewrite (phase_r a Ha). reflexivity.
  Qed.

  Lemma sorted_list : map snd (q (number l)) = order2.
  Proof.
    destruct (Q (number l)) as [Pm S]. assert (HI : forall x, In x (q (number l)) -> In (snd x) l).
    { intros x Hx. apply number_in. eapply Permutation_in; [apply Permutation_sym; exact Pm|auto]. }
    rewrite (by_keys K (map snd (q (number l))) 0 (5 * N)).
    - rewrite <- order_eq. apply flat_map_ext_in. intros c Hc. unfold kf. apply (stable (cmp2phase p)); auto.
      intros x y Hx Hy Px Py Hxy. apply (cmp_key x y); auto; [apply number_in; auto|apply number_in; auto|lia].
    - apply (proj1 (ss_map snd (fun a b => K a <= K b) (q (number l)))). eapply ss_weaken; [|exact S]. intros x y Hx Hy Hxy. apply cmp_key; auto.
    - intros a Ha. apply in_map_iff in Ha. destruct Ha as (x & <- & Hx). apply key_range. auto.
  Qed.

  Lemma sort_order : exists ch, sort_2phases q (reds ++ sends ++ recvs) = Ok (ch, order2).
  Proof.
    fold l. destruct (sort_result (cmp2phase p) q l Q (c2_round p)) as (ch & r & f & E & R & [(-> & Er & Em & _)|(-> & Er & Dn)]).
    - intros a Ha. destruct (key_facts a Ha) as (-> & _). lia.
    - exists false. unfold sort_2phases. rewrite E. do 2 f_equal. rewrite <- sorted_list, Em. exact Er.
    - exists true. unfold sort_2phases. rewrite E. do 2 f_equal. rewrite Er, sorted_list.
      assert (HO : forall a, In a order2 -> In a l). { intros a Ha. rewrite <- sorted_list in Ha. exact (Permutation_in _ (Permutation_sym (order_perm (cmp2phase p) q l Q)) Ha). }
      rewrite filter_all by (intros a Ha; apply (key_facts a (HO a Ha))).
      assert (F0 : forall a, In a l -> f (a_round a) = a_round a).
      { intros a Ha. destruct R as [_ R2]. pose proof (R2 a Ha). destruct (key_facts a Ha) as (E0 & _). lia. }
      clear - HO F0. induction order2 as [|a o IH]; auto. cbn [map]. rewrite IH by (intros; apply HO; right; auto). f_equal. apply renum_id. apply F0, HO. left; auto.
  Qed.
End Order.
