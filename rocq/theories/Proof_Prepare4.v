(* All transformations of laik_mpi_prepare on a sequence of messages of one round. *)
From Coq Require Import ZArith List Bool Lia ZifyBool ZifyNat Permutation Sorted.
From Verif Require Import Base Model_Space Model_Mem Model_Transition Model_Action Model_ActionTrans Model_ActionExec Model_ActionExec2 Model_RangeList Model_Layout Model_Partitioner Model_Data Model_Switch Model_MpiPrepare Spec_RangeList Spec_Action Spec_ActionTrans Spec_Alloc Spec_Async.
From Verif Require Import Proof_Type Proof_Comb1 Proof_Comb2 Proof_Comb3 Proof_Comb4 Proof_Comb5 Proof_Comb6 Proof_Comb7 Proof_Comb8 Proof_Alloc Proof_Action2 Proof_Async3 Prop_Combine Prop_Alloc Proof_Prepare1 Proof_Prepare2 Proof_Prepare3 Proof_CopyArea.
Import ListNotations.
Open Scope Z_scope.

Lemma renum_den cx place T oth f a : den2 cx place T oth (renum f a) = den2 cx place T oth a.
Proof. destruct a as [r p]. unfold den2, den, renum. cbn [a_par]. reflexivity. Qed.

(* sorting a sequence without no-operations *)
Lemma sort_plain cmp q l : is_qsort cmp q -> (forall x y, cmp x y <= 0 -> a_round (snd x) <= a_round (snd y)) ->
  (forall a, In a l -> plain (a_par a) /\ 0 <= a_round a < 255) ->
  exists ch f O, sort_with q l = Ok (ch, map (renum f) O) /\ Permutation l O /\ Renumbering f l /\ by_round O /\
    StronglySorted (fun a b => exists i j, cmp (i, a) (j, b) <= 0) O.
Proof.
  intros Q Hc H. destruct (sort_result cmp q l Q Hc (fun a Ha => proj2 (H a Ha))) as (ch & r & f & E & R & D).
  set (O := map snd (q (number l))). assert (P : Permutation l O) by (apply (order_perm cmp); auto). destruct (Q (number l)) as [_ S].
  assert (PO : forall a, In a O -> plain (a_par a)) by (intros a Ha; apply H; eapply Permutation_in; [apply Permutation_sym; eauto|auto]).
  exists ch, f, O. split; [|split; [auto|split; [auto|split]]].
  - rewrite E. f_equal. f_equal. destruct D as [(_ & -> & D & F)|(_ & -> & _)].
    + change (map snd (q (number l))) with O in D. rewrite D. rewrite <- (map_id l) at 1. apply map_ext. intros [k p]. unfold renum. cbn [a_round a_par]. rewrite F. auto.
    + change (map snd (q (number l))) with O. rewrite filter_all; auto. intros a Ha. apply plain_nop. auto.
  - unfold by_round, O. apply (proj1 (ss_map snd (fun a b => a_round a <= a_round b) _)). eapply ss_weaken; [|apply S]. intros x y _ _. apply Hc.
  - unfold O. apply (proj1 (ss_map snd (fun a b => exists i j, cmp (i, a) (j, b) <= 0) _)). eapply ss_weaken; [|apply S]. intros [i a] [j b] _ _ Hle. exists i, j. exact Hle.
Qed.

(* what holds for the sequence before and after sorting *)
Record Prepared (Pk : kind -> Prop) (L : list action) : Prop := {
  pp_plain : forall a, In a L -> plain (a_par a) /\ 0 <= a_round a < 255;
  pp_one : exists rm, forall a k, In a L -> kind_of (a_par a) = Some k -> a_round a = rm /\ Pk k;
  pp_differ : kinds_differ L }.
Lemma prep_perm Pk L O : Permutation L O -> Prepared Pk L -> Prepared Pk O.
Proof.
  intros P [A (rm & B) C]. assert (I : forall a, In a O -> In a L) by (intros a Ha; eapply Permutation_in; [apply Permutation_sym; eauto|auto]).
  constructor; auto.
  - exists rm. eauto.
  - unfold kinds_differ in *. eapply fop_perm; eauto. intros x y H. cbv beta in *. rewrite same_kind_sym. exact H.
Qed.
Lemma prep_renum Pk f L : Renumbering f L -> Prepared Pk L -> Prepared Pk (map (renum f) L).
Proof.
  intros [R1 R2] [A (rm & B) C]. constructor.
  - intros a Ha. apply in_map_iff in Ha as (b & <- & Hb). destruct (A b Hb) as [A1 A2]. specialize (R2 b Hb). unfold renum. cbn [a_par a_round]. split; auto. lia.
  - exists (f rm). intros a k Ha Hk. apply in_map_iff in Ha as (b & <- & Hb). unfold renum in *. cbn [a_par a_round] in *. destruct (B b k Hb Hk) as [B1 B2]. rewrite B1. auto.
  - apply fop_map. eapply fop_impl; [|exact C]. intros x y Hx Hy H. cbv beta in *. destruct (same_kind (renum f x) (renum f y)) eqn:K; auto.
    apply same_kind_iff in K as (k & K1 & K2 & K3). unfold renum in K1, K2, K3. cbn [a_par a_round] in K1, K2, K3. rewrite <- H. symmetry. apply same_kind_iff. exists k. split; auto. split; auto.
    destruct (B x k Hx K1), (B y k Hy K2). lia.
Qed.
Lemma renum_together d f L : (forall a, d (renum f a) = d a) -> Renumbering f L -> together d L -> together d (map (renum f) L).
Proof.
  intros D [R1 R2] [A B]. split.
  - apply fop_map. eapply fop_impl; [|exact A]. intros x y Hx Hy H E. rewrite !D. apply H. unfold renum in E. cbn [a_round] in E.
    destruct (Z.lt_trichotomy (a_round x) (a_round y)) as [L1|[L1|L1]]; auto; [pose proof (R1 x y Hx Hy L1)|pose proof (R1 y x Hy Hx L1)]; lia.
  - apply Forall_forall. intros a Ha. apply in_map_iff in Ha as (b & <- & Hb). rewrite D. rewrite Forall_forall in B. auto.
Qed.
Lemma perm_together d L O : Permutation L O -> together d L -> together d O.
Proof.
  intros P [A B]. split.
  - eapply fop_perm; eauto. intros x y H E. apply Com_sym, H. auto.
  - eapply Permutation_Forall; eauto.
Qed.
Lemma renum_rounds f L : Renumbering f L -> by_round L -> by_round (map (renum f) L).
Proof.
  intros [R1 R2] S. unfold by_round in *. apply (proj1 (ss_map (renum f) (fun a b => a_round a <= a_round b) _)). eapply ss_weaken; [|apply S]. intros x y Hx Hy H. cbv beta in *.
  change (f (a_round x) <= f (a_round y)). destruct (Z.eq_dec (a_round x) (a_round y)) as [E|E]; [rewrite E; lia|]. assert (Hlt : a_round x < a_round y) by lia. pose proof (R1 x y Hx Hy Hlt). lia.
Qed.
Lemma renum_perm f L O : Permutation L O -> Renumbering f L -> Renumbering f O.
Proof. intros P [R1 R2]. assert (I : forall a, In a O -> In a L) by (intros a Ha; eapply Permutation_in; [apply Permutation_sym; eauto|auto]). split; auto. Qed.

Lemma cmp_rounds_le x y : cmp_rounds x y <= 0 -> a_round (snd x) <= a_round (snd y).
Proof. unfold cmp_rounds. destruct (a_round (snd x) =? a_round (snd y)) eqn:E; cbn [negb]; lia. Qed.
Lemma cmp2phase_le me x y : cmp2phase me x y <= 0 -> a_round (snd x) <= a_round (snd y).
Proof. unfold cmp2phase. destruct (a_round (snd x) =? a_round (snd y)) eqn:E; cbn [negb]; lia. Qed.

(* the order of messages after sort_2phases *)
Definition peer_ok (N me : Z) (k : kind) : Prop := match k with KS t | KR t => 0 <= t < N /\ t <> me | _ => False end.
Definition kkey (N me : Z) (k : kind) : Z := match k with KS t => mkey N me t | KR f => mkey N f me | _ => 0 end.
Lemma plain_wf cx place T oth N me a : plain (a_par a) -> (forall k, kind_of (a_par a) = Some k -> peer_ok N me k) -> iwf N me (den2 cx place T oth a).
Proof.
  destruct a as [r p]. cbn [a_par]. intros H K. unfold den2, den, iwf. cbn [a_par]. destruct p; simpl in H; try tauto; cbn.
  - exact (K (KS to) eq_refl).
  - exact (K (KR from) eq_refl).
Qed.
Lemma plain_key cx place T oth N me a k : plain (a_par a) -> ikey N me (den2 cx place T oth a) = Some k -> exists kd, kind_of (a_par a) = Some kd /\ k = kkey N me kd.
Proof.
  destruct a as [r p]. cbn [a_par]. unfold den2, den, ikey. cbn [a_par]. destruct p; simpl; try tauto; intros _ H; try discriminate; injection H as <-; eexists; split; reflexivity.
Qed.
Lemma cmp2_inv me a b i j : a_round a = a_round b -> cmp2phase me (i, a) (j, b) <= 0 ->
  phase2 me a < phase2 me b \/ (phase2 me a = phase2 me b /\ (0 < phase2 me a -> peer0 a <= peer0 b)).
Proof.
  intros E. unfold cmp2phase. cbn [fst snd]. rewrite E. replace (a_round b =? a_round b) with true by lia. cbn [negb].
  destruct (phase2 me a =? phase2 me b) eqn:E1; cbn [negb]; [|lia]. destruct (phase2 me a >? 0) eqn:E2; cbn [andb]; [|lia].
  destruct (peer0 a =? peer0 b) eqn:E3; cbn [negb]; lia.
Qed.
Lemma key_lia N me (sa sb : bool) t u : 0 <= me < N -> 0 <= t < N /\ t <> me -> 0 <= u < N /\ u <> me ->
  (let pa := if sa then (if t <? me then 3 else 2) else (if t <? me then 1 else 4) in
   let pb := if sb then (if u <? me then 3 else 2) else (if u <? me then 1 else 4) in pa < pb \/ (pa = pb /\ (0 < pa -> t <= u))) ->
  (if sa then mkey N me t else mkey N t me) <= (if sb then mkey N me u else mkey N u me).
Proof.
  intros Hm [Ht Nt] [Hu Nu]. unfold mkey.
  assert (M : forall x y, x < y -> x * N + N <= y * N) by (intros; nia). assert (B : forall x, 0 <= x -> 0 <= x * N) by (intros; nia).
  pose proof (M t u). pose proof (M u t). pose proof (M t me). pose proof (M me t). pose proof (M u me). pose proof (M me u). pose proof (M t N). pose proof (M u N). pose proof (M me N).
  pose proof (B t). pose proof (B u). pose proof (B me). clear M B.
  destruct sa, sb; destruct (t <? me) eqn:E1, (u <? me) eqn:E2; destruct (me <? t) eqn:E3; try lia; destruct (me <? u) eqn:E4; try lia; cbv zeta; intros HC; try lia;
    (destruct (Z.eq_dec t u) as [->|Ne]; [lia|]; assert (t < u) by lia; lia).
Qed.
Lemma phase_key N me a b i j ka kb : 0 <= me < N -> plain (a_par a) -> plain (a_par b) -> kind_of (a_par a) = Some ka -> kind_of (a_par b) = Some kb ->
  peer_ok N me ka -> peer_ok N me kb -> a_round a = a_round b -> cmp2phase me (i, a) (j, b) <= 0 -> kkey N me ka <= kkey N me kb.
Proof.
  intros Hm Pa Pb Ka Kb Oa Ob E C. apply cmp2_inv in C; auto. clear E. destruct a as [ra pa], b as [rb pb]. cbn [a_par a_round] in *.
  destruct pa; simpl in Pa; try tauto; try discriminate Ka; injection Ka as <-; (destruct pb; simpl in Pb; try tauto; try discriminate Kb; injection Kb as <-);
    unfold phase2, isSend, isRecv, peer0, getPeer in C; cbn [a_par] in C; unfold kkey; simpl in Oa, Ob;
    match goal with
    | |- mkey N me ?t <= mkey N me ?u => exact (key_lia N me true true t u Hm Oa Ob C)
    | |- mkey N me ?t <= mkey N ?u me => exact (key_lia N me true false t u Hm Oa Ob C)
    | |- mkey N ?t me <= mkey N me ?u => exact (key_lia N me false true t u Hm Oa Ob C)
    | |- mkey N ?t me <= mkey N ?u me => exact (key_lia N me false false t u Hm Oa Ob C)
    end.
Qed.

Lemma renum_asy cx f L : Renumbering f L -> ForallOrdPairs (Asy cx) L -> ForallOrdPairs (Asy cx) (map (renum f) L).
Proof.
  intros [R1 R2] A. apply fop_map. eapply fop_impl; [|exact A]. intros x y Hx Hy [H|[(H1 & H2 & H3)|(H1 & H2 & H3)]]; [left; exact H|right; left|right; right]; (split; [cbn; apply R1; auto|split; auto]).
Qed.
Definition key_order (N me : Z) (L : list action) : Prop :=
  StronglySorted (fun a b => forall ka kb, kind_of (a_par a) = Some ka -> kind_of (a_par b) = Some kb -> kkey N me ka <= kkey N me kb) L.

Section Passes.
  Variables (N me r0 : Z) (cx : actx) (l : list action) (q : sorts).
  Hypothesis Hme : 0 <= me < N.
  Hypothesis He : 0 < cx_es cx.
  Hypothesis Hr0 : 0 <= r0 < 85.
  Hypothesis Hl : forall a, In a l -> a_round a = r0 /\ is_sr (a_par a).
  Hypothesis Htot : total l * cx_es cx < 2 ^ 32.
  Hypothesis Hpeer : forall a k, In a l -> kind_of (a_par a) = Some k -> peer_ok N me k.
  Hypothesis Q1 : is_qsort cmp_rounds (so_rounds1 q).
  Hypothesis Q2 : is_qsort (cmp2phase me) (so_2phases q).

  Lemma passes_ok red asyn b1 b2 b3 : exists F bufs nce,
    mpi_passes red asyn q b1 b2 b3 cx (mkSeq l 0 [] 0) =
      (if asyn then do l10 <- async F; do l11 <- sort_rounds (so_rounds2 q) (snd l10); Ok (mkSeq (snd l11) 0 bufs nce) else Ok (mkSeq F 0 bufs nce)) /\
    (bufs = [] \/ exists n, bufs = [(b1, n)] /\ 0 < n <= total l * cx_es cx) /\
    by_round F /\ Prepared (peer_ok N me) F /\ key_order N me F /\ (forall a, In a F -> a_round a <= 3 * r0 + 2) /\ (iarea cx l -> away_of cx (bufs_area bufs) l -> ForallOrdPairs (Asy cx) F) /\
    (iarea cx l -> away_of cx (bufs_area bufs) l -> forall place T oth,
       together (den2 cx place T oth) F /\
       forall st, SameRun (bufs_area bufs) (exec_is (map (den2 cx place T oth) l) st) (exec_is (map (den2 cx place T oth) F) st)).
  Proof.
    destruct (core cx r0 l He Hr0 Hl Htot b1) as (ch1 & s1 & ch2 & L & bufs & nce & rm & C1 & C2 & C3 & C4 & C5 & C6 & CR2 & CA & C7).
    assert (PL : Prepared (peer_ok N me) L).
    { constructor; auto. exists rm. intros a k Ha Hk. destruct (C5 a k Ha Hk) as (E & a0 & H0 & K0). split; auto. eapply Hpeer; eauto. }
    destruct (sort_plain cmp_rounds (so_rounds1 q) L Q1 cmp_rounds_le C4) as (cs1 & f1 & O1 & E1 & P1 & R1 & B1 & _).
    set (L1 := map (renum f1) O1) in *. assert (PL1 : Prepared (peer_ok N me) L1) by (apply prep_renum; [apply (renum_perm f1 L); auto|apply (prep_perm _ L); auto]).
    assert (B1' : by_round L1) by (apply renum_rounds; auto; apply (renum_perm f1 L); auto).
    destruct (sort_plain (cmp2phase me) (so_2phases q) L1 Q2 (cmp2phase_le me) (pp_plain _ _ PL1)) as (cs2 & f2 & O2 & E2 & P2 & R2 & B2 & S2).
    set (F := map (renum f2) O2) in *. assert (PO2 : Prepared (peer_ok N me) O2) by (apply (prep_perm _ L1); auto).
    assert (PF : Prepared (peer_ok N me) F) by (apply prep_renum; auto; apply (renum_perm f2 L1); auto).
    assert (Lb : Z.of_nat (length bufs) < 5) by (destruct C3 as [->|(n & -> & _)]; simpl; lia).
    exists F, bufs, nce. split; [|split; [exact C3|split; [apply renum_rounds; auto; apply (renum_perm f2 L1); auto|split; [exact PF|split; [|split; [|split]]]]]].
    - unfold mpi_passes.
      assert (X0 : (if red then replace_allreduce cx (mkSeq l 0 [] 0) else Ok (false, mkSeq l 0 [] 0)) = Ok (false, mkSeq l 0 [] 0)).
      { destruct red; auto. apply allred_none. intros a Ha. destruct (Hl a Ha). split; [apply sr_plain; auto|lia]. }
      rewrite X0. cbn [obind snd]. rewrite C1. cbn [obind snd]. rewrite C2. cbn [obind snd].
      rewrite split_none by (intros a Ha; apply C4; auto). cbn [obind snd]. rewrite alloc_none by (auto; intros a Ha; apply C4; auto). cbn [obind snd].
      cbn [as_acts]. unfold sort_rounds at 1. rewrite E1. cbn [obind snd]. fold L1. unfold with_acts at 1. cbn [as_nres as_bufs as_nce].
      rewrite combine_none by first [exact He | exact (pp_differ _ _ PL1) | intros a Ha; apply (pp_plain _ _ PL1); auto]. cbn [obind snd]. rewrite alloc_none by (auto; intros a Ha; apply (pp_plain _ _ PL1); auto). cbn [obind snd as_acts].
      unfold sort_2phases. rewrite E2. cbn [obind snd]. reflexivity.
    - unfold key_order, F. apply (proj1 (ss_map (renum f2) (fun a b => forall ka kb, kind_of (a_par a) = Some ka -> kind_of (a_par b) = Some kb -> kkey N me ka <= kkey N me kb) _)).
      eapply ss_weaken; [|apply S2]. intros x y Hx Hy (i & j & Hc) ka kb Ka Kb. cbv beta in *. change (a_par (renum f2 x)) with (a_par x) in Ka. change (a_par (renum f2 y)) with (a_par y) in Kb.
      destruct PO2 as [A (rm2 & B) _]. destruct (B x ka Hx Ka), (B y kb Hy Kb). apply (phase_key N me x y i j); auto; try (apply A; auto). lia.
    - intros a Ha. unfold F in Ha. apply in_map_iff in Ha as (a2 & <- & Ha). assert (Ha1 : In a2 L1) by (eapply Permutation_in; [apply Permutation_sym; exact P2|exact Ha]).
      destruct R2 as [_ R2]. specialize (R2 a2 Ha1). unfold L1 in Ha1. apply in_map_iff in Ha1 as (a1 & Ea & Ha1). assert (Ha0 : In a1 L) by (eapply Permutation_in; [apply Permutation_sym; exact P1|exact Ha1]).
      destruct R1 as [_ R1]. specialize (R1 a1 Ha0). specialize (CR2 a1 Ha0). assert (Er : a_round a2 = f1 (a_round a1)) by (rewrite <- Ea; reflexivity). cbn. lia.
    - intros I A. apply renum_asy; [apply (renum_perm f2 L1); auto|]. apply (fop_perm _ L1); [apply asy_sym|exact P2|]. apply renum_asy; [apply (renum_perm f1 L); auto|]. apply (fop_perm _ L); [apply asy_sym|exact P1|]. apply CA; auto.
    - intros I A place T oth. destruct (C7 I A place T oth) as [TL SL]. set (d := den2 cx place T oth) in *.
      assert (D : forall f a, d (renum f a) = d a) by (intros; apply renum_den).
      assert (TL1 : together d L1) by (apply renum_together; auto; [apply (renum_perm f1 L); auto|apply (perm_together d L); auto]).
      split; [apply renum_together; auto; [apply (renum_perm f2 L1); auto|apply (perm_together d L1); auto]|].
      intros st. eapply same_trans; [apply SL|]. apply (same_mono none); [intros x []|].
      eapply same_trans; [apply (seq_perm d L O1 st P1 TL B1); intros a Ha; apply C4; auto|].
      assert (X1 : map d O1 = map d L1) by (unfold L1; rewrite map_map; apply map_ext; intros; symmetry; apply D).
      rewrite X1. rewrite <- (exec_seq_sorted d L1 st B1' (fun a Ha => proj2 (pp_plain _ _ PL1 a Ha))).
      eapply same_trans; [apply (seq_perm d L1 O2 st P2 TL1 B2); intros a Ha; apply (pp_plain _ _ PL1); auto|].
      assert (X2 : map d O2 = map d F) by (unfold F; rewrite map_map; apply map_ext; intros; symmetry; apply D). rewrite X2. apply same_refl.
  Qed.
End Passes.
