(* laik_aseq_allocBuffer *)
From Coq Require Import ZArith List Bool Lia ZifyBool ZifyNat.
From Verif Require Import Base Model_Space Model_Mem Model_Transition Model_Action Model_ActionTrans Model_ActionExec Model_ActionExec2 Spec_Action Spec_Alloc.
From Verif Require Import Proof_Comb4 Proof_Comb5.
Import ListNotations.
Open Scope Z_scope.

Lemma rb_reference es p : rb_ref p = match reference es (mkAct 0 p) with Some (id, o, n) => match rb_ref p with Some (_, _, c) => Some (id, o, c) | None => None end
    | None => match copy_reference (mkAct 0 p) with Some (id, o, ce) => Some (id, o, Z.of_nat (length ce)) | None => None end end.
Proof. destruct p; reflexivity. Qed.

(* the table of reservations *)
Fixpoint table (base : Z) (l : list action) : list (Z * (Z * Z)) :=
  match l with
  | [] => []
  | a :: l' => match reservation a with Some (id, n) => (id, (base, n)) :: table (base + n) l' | None => table base l' end
  end.
Lemma table_fst l : forall base, map fst (table base l) = map fst (reservations l).
Proof.
  induction l as [|a l IH]; intros base; simpl; auto. unfold reservations in *. cbn [flat_map].
  destruct (reservation a) as [[id n]|]; simpl; rewrite IH; auto.
Qed.
Lemma table_snd l : forall base, map (fun e => (fst e, snd (snd e))) (table base l) = reservations l.
Proof.
  induction l as [|a l IH]; intros base; simpl; auto. unfold reservations in *. cbn [flat_map].
  destruct (reservation a) as [[id n]|]; simpl; rewrite IH; auto.
Qed.
Definition nn (l : list action) : Prop := forall id n, In (id, n) (reservations l) -> 0 <= n.
Lemma res_cons a l : reservations (a :: l) = match reservation a with Some x => x :: reservations l | None => reservations l end.
Proof. unfold reservations. cbn [flat_map]. destruct (reservation a) as [[? ?]|]; auto. Qed.
Lemma bytes_nonneg l : nn l -> 0 <= bytes_of (reservations l).
Proof.
  unfold nn. generalize (reservations l). induction l0 as [|[id n] q IH]; simpl; intros H; [unfold bytes_of; simpl; lia|].
  unfold bytes_of in *. simpl. specialize (H id n (or_introl eq_refl)) as H'. specialize (IH (fun i k Hi => H i k (or_intror Hi))). lia.
Qed.
Lemma nn_cons a l : nn (a :: l) -> nn l.
Proof. unfold nn. rewrite res_cons. destruct (reservation a); auto. intros H ? ? Hi. apply (H id n). right; auto. Qed.
Lemma table_bound l : forall base, nn l -> forall id o n, In (id, (o, n)) (table base l) -> base <= o /\ 0 <= n /\ o + n <= base + bytes_of (reservations l).
Proof.
  induction l as [|a l IH]; intros base N id o n H; [destruct H|]. pose proof (nn_cons _ _ N) as N'. pose proof (bytes_nonneg _ N') as Hb.
  cbn [table] in H. unfold nn in N. rewrite res_cons in *. destruct (reservation a) as [[i k]|]; [|eauto].
  specialize (N i k (or_introl eq_refl)). unfold bytes_of in *. simpl. destruct H as [E|H].
  - injection E as <- <- <-. lia.
  - specialize (IH _ N' _ _ _ H). lia.
Qed.
Lemma table_order l : forall base, nn l -> ForallOrdPairs (fun x y => fst (snd x) + snd (snd x) <= fst (snd y)) (table base l).
Proof.
  induction l as [|a l IH]; intros base N; cbn [table]; [constructor|]. pose proof (nn_cons _ _ N) as N'. destruct (reservation a) as [[i k]|]; auto.
  constructor; auto. apply Forall_forall. intros [i' [o' k']] H. apply table_bound in H; auto. simpl. lia.
Qed.

Definition offof (t : list (Z * (Z * Z))) (id : Z) : Z := match res_find id t with Some (o, _) => o | None => 0 end.
Lemma find_in t id v : NoDup (map fst t) -> In (id, v) t -> res_find id t = Some v.
Proof.
  induction t as [|[k w] t IH]; simpl; intros N H; [destruct H|]. inversion N as [|? ? N1 N2]; subst. destruct H as [E|H].
  - injection E as <- <-. rewrite Z.eqb_refl. auto.
  - destruct (k =? id) eqn:E; auto. exfalso. apply N1. assert (k = id) by lia. subst k. apply (in_map fst) in H. auto.
Qed.
Lemma find_some t id v : res_find id t = Some v -> In (id, v) t.
Proof. induction t as [|[k w] t IH]; simpl; intros H; [discriminate|]. destruct (k =? id) eqn:E; auto. injection H as ->. left. f_equal. lia. Qed.

(* the first pass: what it does to an action *)
Definition upd (nbuf : Z) (off : Z -> Z) (a : action) : action :=
  match a_par a with
  | BufReserve size id o => if is_new id then mkAct (a_round a) (BufReserve size nbuf (off id)) else a
  | p => match rb_ref p with
         | Some (id, o, _) => if is_new id then mkAct (a_round a) (rb_set p nbuf (off id + o)) else a
         | None => a
         end
  end.
Section Pass.
  Variables (es nres nbuf : Z) (F : list (Z * (Z * Z))).
  Hypothesis (ND : NoDup (map fst F)).
  Hypothesis (Bd : forall id o n, In (id, (o, n)) F -> 0 <= o /\ 0 <= n /\ o + n < 2 ^ 32).
  Definition Inside (a : action) : Prop := forall id o c, rb_ref (a_par a) = Some (id, o, c) -> is_new id = true ->
    0 < c /\ exists ro n, In (id, (ro, n)) F /\ o + c * es <= n.
  Definition OffOk (a : action) : Prop := forall id o c, rb_ref (a_par a) = Some (id, o, c) -> 0 <= o /\ 0 <= c * es < 2 ^ 32.

  Lemma pass_inv l : forall res b r acts b' r', alloc_pass es nres nbuf l res b r = Ok (acts, b', r') ->
    nn l -> 0 <= b -> b + bytes_of (reservations l) < 2 ^ 32 -> (forall e, In e res -> In e F) -> (forall e, In e (table b l) -> In e F) -> (forall a, In a l -> OffOk a) ->
    acts = map (upd nbuf (offof F)) l /\ b' = b + bytes_of (reservations l) /\ r' = r + Z.of_nat (length (reservations l)) /\ (forall a, In a l -> Inside a) /\
    (forall id n, In (id, n) (reservations l) -> 100 <= id < 100 + nres).
  Proof.
    induction l as [|a l IH]; intros res b r acts b' r' H N Hb B HR HT HO.
    - simpl in H. injection H as <- <- <-. unfold reservations, bytes_of. simpl. repeat split; auto; try lia; intros; try contradiction.
    - pose proof (nn_cons _ _ N) as N'. pose proof (bytes_nonneg _ N') as Hb'. assert (HO' : forall x, In x l -> OffOk x) by (intros; apply HO; right; auto).
      specialize (HO a (or_introl eq_refl)). cbn [alloc_pass] in H. rewrite res_cons in *. cbn [table] in HT. unfold nn in N. rewrite res_cons in N.
      assert (Skip : forall rest, (do x <- alloc_pass es nres nbuf l res b r; Ok (a :: fst (fst x), snd (fst x), snd x)) = Ok (acts, b', r') ->
         reservation a = None -> upd nbuf (offof F) a = a -> Inside a -> rest = reservations l ->
         acts = map (upd nbuf (offof F)) (a :: l) /\ b' = b + bytes_of rest /\ r' = r + Z.of_nat (length rest) /\ (forall x, a = x \/ In x l -> Inside x) /\ (forall id n, In (id, n) rest -> 100 <= id < 100 + nres)).
      { intros rest H1 Hr Hu Hi ->. rewrite Hr in *. apply obind_ok in H1 as ([[x b1] r1] & E & E2). injection E2 as <- <- <-.
        specialize (IH _ _ _ _ _ _ E N' Hb B HR HT HO') as (-> & -> & -> & I1 & I2). split; [simpl; rewrite Hu; auto|]. split; [auto|split; [auto|split; [|auto]]]. intros y [<-|Hy]; auto. }
      unfold reservation in *. cbn [In].
      destruct (a_par a) eqn:Ep; cbn [rb_ref] in H; try (match type of H with context [rb_set] => idtac end);
        try (apply Skip; auto; [unfold upd; rewrite Ep; auto|unfold Inside; rewrite Ep; intros ? ? ? HH; discriminate]; fail).
      1: { unfold is_new in *. destruct (bufID <? ASEQ_BUFFER_MAX) eqn:El; unfold ASEQ_BUFFER_MAX in El.
        - replace (5 <=? bufID) with false in * by lia. apply Skip; auto; [unfold upd; rewrite Ep; unfold is_new; replace (5 <=? bufID) with false by lia; auto|unfold Inside; rewrite Ep; intros ? ? ? HH; discriminate].
        - replace (5 <=? bufID) with true in * by lia. clear Skip. repeat oinv H. match goal with X : alloc_pass _ _ _ _ _ _ _ = Ok ?x |- _ => rename X into E9; destruct x as [[x0 b1] r1] end. cbn [fst snd] in *. injection H as <- <- <-.
          assert (Sz : 0 <= size) by (apply (N bufID size); left; auto). unfold bytes_of in B. simpl in B. fold (bytes_of (reservations l)) in B.
          rewrite u32_id in E9 by lia.
          assert (Hin : In (bufID, (b, size)) F) by (apply HT; left; auto).
          specialize (IH _ _ _ _ _ _ E9 N' ltac:(lia) ltac:(lia)) as (-> & -> & -> & I1 & I2); auto.
          + intros e [<-|He]; auto.
          + intros e He. apply HT. right; auto.
          + assert (Eu : upd nbuf (offof F) a = mkAct (a_round a) (BufReserve size nbuf b)) by (unfold upd; rewrite Ep; unfold is_new; replace (5 <=? bufID) with true by lia; unfold offof; rewrite (find_in F bufID (b, size)); auto).
            cbn [List.map]. rewrite Eu.
            unfold bytes_of. simpl. fold (bytes_of (reservations l)). split; [auto|split; [lia|split; [lia|split]]].
            * intros x [<-|Hx]; auto. unfold Inside. rewrite Ep. intros ? ? ? HH; discriminate.
            * intros id n [E1|Hx]; [injection E1 as <- <-; lia|eauto]. }
      all: unfold ASEQ_BUFFER_MAX in H; destruct (bufID <? 5) eqn:El;
        [apply Skip; auto; [unfold upd; rewrite Ep; cbn [rb_ref]; unfold is_new; replace (5 <=? bufID) with false by lia; auto
                           |unfold Inside; rewrite Ep; intros ? ? ? HH; injection HH as <- <- <-; unfold is_new; intros; lia]
        |clear Skip; repeat oinv H; destruct (res_find bufID res) as [[roff rsize]|] eqn:Ef; [|discriminate H]; repeat oinv H;
         specialize (HO _ _ _ ltac:(rewrite Ep; reflexivity)); unfold OffOk in HO; destruct HO as [HO1 HO2];
         assert (Hin : In (bufID, (roff, rsize)) F) by (apply HR; apply find_some; auto); destruct (Bd _ _ _ Hin) as (Bd1 & Bd2 & Bd3);
         assert (Eo : offof F bufID = roff) by (unfold offof; rewrite (find_in F _ (roff, rsize)); auto);
         match goal with X : alloc_pass _ _ _ _ _ _ _ = Ok ?x |- _ => destruct x as [[x0 b1] r1]; specialize (IH _ _ _ _ _ _ X N' Hb B HR HT HO') as (-> & -> & -> & I1 & I2) end;
         cbn [fst snd] in H; rewrite (u32_id (_ * es)) in * by lia; rewrite u32_id in H by lia;
         injection H as <- <- <-; split; [|split; [auto|split; [auto|split; [|auto]]]];
         [cbn [List.map]; f_equal; unfold upd; rewrite Ep; cbn [rb_ref]; unfold is_new; replace (5 <=? bufID) with true by lia; rewrite Eo, (Z.add_comm roff); reflexivity
         |intros x [<-|Hx]; auto; unfold Inside; rewrite Ep; intros ? ? ? HH; injection HH as <- <- <-; intros _; split; [lia|exists roff, rsize; split; auto; lia]]].
  Qed.
End Pass.

Lemma add_count_inv cx rg c c' : box_size (cx_dims cx) rg = Ok c -> add_count cx rg = Ok c' -> c' = c.
Proof. unfold add_count. intros ->. cbn [obind]. intros H. repeat oinv H. congruence. Qed.
Lemma old_kind cx l a p id o c : Reserving cx l -> In a l -> a_par a = p -> rb_ref p = Some (id, o, c) -> is_new id = false ->
  match p with RBufCopy _ _ _ _ | RBufLocalReduce _ _ _ _ _ => True | _ => False end.
Proof.
  intros R Ha Ep Hr Hn. rewrite <- Ep. apply (rv_old _ _ R a id Ha Hn). rewrite <- Ep in Hr. unfold reference, copy_reference.
  destruct (a_par a); try discriminate Hr; injection Hr as <- <- <-; eauto.
Qed.
Lemma subst_placed cx l buf nbuf off a x : Reserving cx l -> In a l -> alloc_subst cx buf (upd nbuf off a) = Ok x -> x = placed buf nbuf off a.
Proof.
  intros R Ha H. pose proof (rv_pack _ _ R a Ha) as RP. pose proof (fun p id o c => old_kind cx l a p id o c R Ha) as OK.
  unfold upd in H. unfold placed. destruct a as [r p]. cbn [a_par a_round] in *.
  destruct p; cbn [rb_ref] in H;
    try (match type of H with context [is_new ?i] => destruct (is_new i) eqn:En; [|try (exfalso; exact (OK _ _ _ _ eq_refl eq_refl En))] end);
    unfold alloc_subst in H; cbn [rb_set a_par a_round] in H; unfold aseq_add, add_action in H; cbn [a_par a_round] in H;
    change (-1 <? 0) with true in H; cbn [obind] in H;
    repeat oinv H; repeat match goal with X : Ok _ = Ok _ |- _ => injection X as <- end;
    try (match goal with X : add_count _ _ = Ok _ |- _ => apply (add_count_inv _ _ _ _ RP) in X; subst end);
    repeat match goal with X : cassert _ _ = Ok _ |- _ => oinv X end; repeat match goal with X : Ok _ = Ok _ |- _ => injection X as <- end; try congruence.
Qed.
Lemma omap_inv {A B} (f : A -> outcome (list B)) g l : (forall a x, In a l -> f a = Ok x -> x = g a) -> forall y, omap_app f l = Ok y -> y = flat_map g l.
Proof.
  induction l as [|a l IH]; simpl; intros H y E; [congruence|]. repeat oinv E. injection E as <-.
  f_equal; [apply H; auto|]. apply IH; auto.
Qed.
Lemma omap_map {A B C} (f : B -> outcome (list C)) (h : A -> B) l : omap_app f (map h l) = omap_app (fun a => f (h a)) l.
Proof. induction l as [|a l IH]; simpl; auto. rewrite IH. auto. Qed.
Lemma omap_ok {A B} (f : A -> outcome (list B)) l : (forall a, In a l -> exists x, f a = Ok x) -> exists y, omap_app f l = Ok y.
Proof.
  induction l as [|a l IH]; simpl; intros H; [eauto|]. destruct (H a (or_introl eq_refl)) as [x ->]. destruct IH as [y ->]; [intros; apply H; right; auto|].
  simpl. eauto.
Qed.

Lemma off_ok cx l a : Reserving cx l -> In a l -> OffOk (cx_es cx) a.
Proof.
  intros R Ha id o c H. pose proof (rv_ref _ _ R a) as R1. pose proof (rv_copy _ _ R a) as R2. unfold reference, copy_reference in *.
  destruct (a_par a); try discriminate H; injection H as <- <- <-; first [apply (R1 _ _ _ Ha eq_refl) | apply (R2 _ _ _ Ha eq_refl)].
Qed.
Definition tab (s : aseq) := table 0 (as_acts s).
Lemma tab_bd cx s : Reserving cx (as_acts s) -> NoDup (map fst (tab s)) /\ (forall id o n, In (id, (o, n)) (tab s) -> 0 <= o /\ 0 <= n /\ o + n < 2 ^ 32).
Proof.
  intros R. split; [unfold tab; rewrite table_fst; apply (rv_ids _ _ R)|]. intros id o n H. apply table_bound in H; [|exact (rv_size _ _ R)].
  pose proof (rv_total _ _ R). lia.
Qed.

Lemma alloc_inv cx buf s s' : Reserving cx (as_acts s) -> alloc_buffer cx buf s = Ok (true, s') ->
  let nbuf := Z.of_nat (length (as_bufs s)) in let n := bytes_of (reservations (as_acts s)) in
  nbuf < 5 /\ 0 < n /\ as_nres s = Z.of_nat (length (reservations (as_acts s))) /\
  s' = mkSeq (flat_map (placed buf nbuf (offof (tab s))) (as_acts s)) 0 (as_bufs s ++ [(buf, n)]) (as_nce s) /\
  (forall a, In a (as_acts s) -> Inside (cx_es cx) (tab s) a).
Proof.
  intros R H nbuf n. destruct (tab_bd cx s R) as [ND BD]. unfold alloc_buffer in H. fold nbuf in H. repeat oinv H. destruct z as [[acts b] r].
  destruct (pass_inv (cx_es cx) (as_nres s) nbuf (tab s) ND BD (as_acts s) [] 0 0 acts b r) as (-> & -> & -> & I1 & I2); auto.
  { exact (rv_size _ _ R). } { lia. } { apply (rv_total _ _ R). } { intros e []. } { intros a Ha. eapply off_ok; eauto. }
  rewrite !Z.add_0_l in H. fold n in H. destruct (n =? 0) eqn:E0'; [discriminate H|]. repeat oinv H. injection H as <-.
  rewrite omap_map in *. 
  match goal with X : omap_app _ _ = Ok ?z |- _ => apply (omap_inv _ (placed buf nbuf (offof (tab s)))) in X; [subst z|intros a x Ha Hx; eapply subst_placed; eauto] end.
  unfold ASEQ_BUFFER_MAX in *. pose proof (bytes_nonneg _ (rv_size _ _ R)) as Hn. fold n in Hn. split; [lia|split; [lia|split; [lia|split; auto]]].
Qed.

(* no abort *)
Lemma nodup_l {A} (a b : list A) : NoDup (a ++ b) -> NoDup a.
Proof. induction a as [|x a IH]; simpl; intros H; [constructor|]. inversion H; subst. constructor; auto. rewrite in_app_iff in *. tauto. Qed.
Lemma sound_pass es nres nbuf (F : list (Z * (Z * Z))) l : NoDup (map fst F) -> (forall id o n, In (id, (o, n)) F -> 0 <= o /\ 0 <= n /\ o + n < 2 ^ 32) -> 0 < es ->
  forall res b r, Sound es nres (map (fun e => (fst e, snd (snd e))) res) l -> nn l -> 0 <= b -> b + bytes_of (reservations l) < 2 ^ 32 ->
  NoDup (map fst res ++ map fst (reservations l)) -> (forall id v, In (id, v) res -> 100 <= id < 100 + nres) ->
  (forall a, In a l -> OffOk es a) -> exists x, alloc_pass es nres nbuf l res b r = Ok x.
Proof.
  intros ND BD Hes. induction l as [|a l IH]; intros res b r S N Hb B Nd Rg HO; [simpl; eauto|].
  pose proof (nn_cons _ _ N) as N'. pose proof (bytes_nonneg _ N') as Hb'. assert (HO' : forall x, In x l -> OffOk es x) by (intros; apply HO; right; auto).
  specialize (HO a (or_introl eq_refl)). cbn [alloc_pass Sound] in *. unfold nn in N. rewrite res_cons in *.
  assert (Fr : forall id m, In (id, m) (map (fun e => (fst e, snd (snd e))) res) -> NoDup (map fst res) -> exists o, res_find id res = Some (o, m)).
  { intros id m Hi Hn. apply in_map_iff in Hi as ([k [o q]] & E & Hi). simpl in E. injection E as -> ->. exists o. apply find_in; auto. }
  assert (NDr : NoDup (map fst res)) by (apply nodup_l in Nd; auto).
  assert (Sk : Sound es nres (map (fun e => (fst e, snd (snd e))) res) l -> NoDup (map fst res ++ map fst (reservations l)) -> b + bytes_of (reservations l) < 2 ^ 32 -> exists x, (do x <- alloc_pass es nres nbuf l res b r; Ok (a :: fst (fst x), snd (fst x), snd x)) = Ok x).
  { intros S1 Nd1 B1. destruct (IH res b r S1 N' Hb B1 Nd1 Rg HO') as [x ->]. simpl. eauto. }
  unfold reservation in *. destruct (a_par a) eqn:Ep; cbn [rb_ref]; try (apply Sk; try tauto; fail).
  1: { unfold is_new, ASEQ_BUFFER_MAX in *. destruct (bufID <? 5) eqn:El.
    - replace (5 <=? bufID) with false in * by lia. apply Sk; auto. tauto.
    - replace (5 <=? bufID) with true in * by lia. destruct S as [S0 S1]. unfold cassert. replace (bufID >=? 100) with true by lia. replace (bufID <? 100 + nres) with true by lia.
      assert (Sz : 0 <= size) by (apply (N bufID size); left; auto). unfold bytes_of in B. simpl in B. fold (bytes_of (reservations l)) in B.
      rewrite u32_id by lia. destruct (IH ((bufID, (b, size)) :: res) (b + size) (r + 1)) as [x ->]; auto; try lia; [| |simpl; eauto].
      + simpl in Nd |- *. apply NoDup_remove in Nd as [Nd1 Nd2]. constructor; auto.
      + intros id v [E|Hi]; eauto. injection E as <- <-. lia. }
  all: destruct S as (S1 & S2 & S3); unfold reference, copy_reference in S1, S2; rewrite Ep in S1, S2; unfold ASEQ_BUFFER_MAX; destruct (bufID <? 5) eqn:El; [apply Sk; auto|];
    specialize (HO _ _ _ ltac:(rewrite Ep; reflexivity)) as [HO1 HO2]; assert (Nw : is_new bufID = true) by (unfold is_new; lia);
    first [destruct (S1 _ _ _ eq_refl Nw) as (Sp & m & Hm & Hle) | destruct (S2 _ _ _ eq_refl Nw) as (Sp & m & Hm & Hle)];
    destruct (Fr _ _ Hm NDr) as [ro Er]; rewrite Er.
  all: match goal with |- context [u32 (?c * _)] => assert (Cp : 0 < c) by first [nia | destruct ce; [congruence|simpl; lia]] end.
  all: destruct (Sk S3 Nd B) as [x Hx]; apply obind_ok in Hx as (y & Hy & _); rewrite Hy; cbn [obind];
    specialize (Rg _ _ (find_some _ _ _ Er)); unfold cassert; rewrite (u32_id (_ * _)) by lia;
    replace (bufID >=? 100) with true by lia; replace (bufID <? 100 + nres) with true by lia;
    match goal with |- context [?c >? 0] => replace (c >? 0) with true by lia end;
    match goal with |- context [?c <=? ?mm] => replace (c <=? mm) with true by lia end; eauto.
Qed.

Lemma sound_inside es nres l : forall seen, Sound es nres seen l -> forall a id o n, In a l -> reference es a = Some (id, o, n) -> is_new id = true -> 0 < n.
Proof.
  induction l as [|b l IH]; intros seen S a id o n Ha Hr Hn; [destruct Ha|]. cbn [Sound] in S.
  destruct (reservation b) as [[i k]|] eqn:Eb.
  - destruct S as [_ S]. destruct Ha as [<-|Ha]; [|eapply IH; eauto]. unfold reservation, reference in *. destruct (a_par b); discriminate.
  - destruct S as (S1 & _ & S). destruct Ha as [<-|Ha]; [|eapply IH; eauto]. destruct (S1 _ _ _ Hr Hn). auto.
Qed.
Lemma sound_ids es nres l : forall seen, Sound es nres seen l -> forall id n, In (id, n) (reservations l) -> 100 <= id < 100 + nres.
Proof.
  induction l as [|b l IH]; intros seen S id n H; [destruct H|]. cbn [Sound] in S. rewrite res_cons in H. destruct (reservation b) as [[i k]|].
  - destruct S as [S1 S2]. destruct H as [E|H]; [injection E as <- <-; auto|eauto].
  - destruct S as (_ & _ & S). eauto.
Qed.
Lemma alloc_ok cx buf s : 0 < cx_es cx -> Reserving cx (as_acts s) -> Sound (cx_es cx) (as_nres s) [] (as_acts s) ->
  as_nres s = Z.of_nat (length (reservations (as_acts s))) -> (forall a, In a (as_acts s) -> a_round a < 255) ->
  Z.of_nat (length (as_bufs s)) < 5 ->
  exists b s', alloc_buffer cx buf s = Ok (b, s') /\ (b = true <-> 0 < bytes_of (reservations (as_acts s))).
Proof.
  intros He R S Hr Hrd Hb. destruct (tab_bd cx s R) as [ND BD]. set (nbuf := Z.of_nat (length (as_bufs s))) in *.
  destruct (sound_pass (cx_es cx) (as_nres s) nbuf (tab s) (as_acts s) ND BD He [] 0 0) as [[[acts b] r] E]; auto.
  { exact (rv_size _ _ R). } { lia. } { apply (rv_total _ _ R). } { apply (rv_ids _ _ R). } { intros ? ? []. } { intros a Ha. eapply off_ok; eauto. }
  destruct (pass_inv (cx_es cx) (as_nres s) nbuf (tab s) ND BD (as_acts s) [] 0 0 acts b r E) as (-> & -> & -> & I1 & I2); auto.
  { exact (rv_size _ _ R). } { lia. } { apply (rv_total _ _ R). } { intros e []. } { intros a Ha. eapply off_ok; eauto. }
  pose proof (bytes_nonneg _ (rv_size _ _ R)) as Hn.
  unfold alloc_buffer. fold nbuf. unfold cassert at 1. unfold ASEQ_BUFFER_MAX. replace (nbuf <? 5) with true by lia. rewrite E. cbn [obind]. rewrite !Z.add_0_l in *.
  destruct (bytes_of (reservations (as_acts s)) =? 0) eqn:E0.
  - do 2 eexists. split; [reflexivity|]. split; [discriminate|lia].
  - rewrite omap_map. destruct (omap_ok (fun a => alloc_subst cx buf (upd nbuf (offof (tab s)) a)) (as_acts s)) as [y ->].
    + intros a Ha. specialize (Hrd a Ha). pose proof (rv_pack _ _ R a Ha) as RP. pose proof (fun p id o c => old_kind cx (as_acts s) a p id o c R Ha) as OK.
      pose proof (fun id o n => sound_inside _ _ _ _ S a id o n Ha) as SI. pose proof (rv_ref _ _ R a) as RR.
      assert (Ad : forall p, add_action (a_round a) p = Ok (mkAct (a_round a) p)) by (intros; unfold add_action, cassert; replace (a_round a <? 255) with true by lia; auto).
      assert (Ac : forall rg c, box_size (cx_dims cx) rg = Ok c -> 0 < c -> c * cx_es cx < 2 ^ 32 -> add_count cx rg = Ok c).
      { intros rg c Hc H1 H2. unfold add_count. rewrite Hc. cbn [obind]. unfold cassert. replace (c >? 0) with true by lia. replace (c <? 2 ^ 32) with true by nia. auto. }
      unfold upd, reference in *. destruct a as [rd p]. cbn [a_par a_round] in *.
      destruct p; cbn [rb_ref];
        try (match goal with |- context [is_new ?i] => destruct (is_new i) eqn:En; [|try (exfalso; exact (OK _ _ _ _ eq_refl eq_refl En))] end);
        unfold alloc_subst; cbn [rb_set a_par a_round]; unfold aseq_add; cbn [a_par a_round]; change (-1 <? 0) with true; cbv iota;
        try (specialize (SI _ _ _ eq_refl En)); try (specialize (RR _ _ _ Ha eq_refl));
        try (unfold cassert; match goal with |- context [?c >? 0] => replace (c >? 0) with true by nia end);
        try (rewrite (Ac _ _ RP) by nia; cbn [obind]); rewrite ?Ad; cbn [obind]; eauto.
    + cbn [obind]. unfold cassert. replace (_ =? as_nres s) with true by lia. do 2 eexists. split; [reflexivity|]. split; [intros; lia|auto].
Qed.

(* execution *)
Lemma skip_step st : exec_i skip st = Some st.
Proof. destruct st. reflexivity. Qed.
Definition eff (i : list instr) (s : pst) : option pst := exec_is i s.
Lemma exec_is_app' l1 : forall l2 t, exec_is (l1 ++ l2) t = match exec_is l1 t with Some t' => exec_is l2 t' | None => None end.
Proof. induction l1 as [|i l1 IH]; intros l2 t; simpl; auto. destruct (exec_i i t); auto. Qed.
Lemma round_flat d (f : action -> list action) l r : (forall a, In a l -> Forall (fun x => a_round x = a_round a) (f a)) ->
  (forall a st, In a l -> exec_is (map d (f a)) st = exec_i (d a) st) ->
  forall st, exec_is (map d (filter (in_rd r) (flat_map f l))) st = exec_is (map d (filter (in_rd r) l)) st.
Proof.
  intros Hr He. induction l as [|a l IH]; intros st; simpl; auto.
  rewrite filter_app, map_app, exec_is_app'. specialize (IH (fun a Ha => Hr a (or_intror Ha)) (fun a st Ha => He a st (or_intror Ha))).
  specialize (Hr a (or_introl eq_refl)). specialize (fun st => He a st (or_introl eq_refl)) as He'. clear He.
  assert (Ef : filter (in_rd r) (f a) = if in_rd r a then f a else []).
  { unfold in_rd. clear He' IH. induction Hr as [|x q Hx Hq IHq]; simpl; [destruct (_ =? r); auto|]. rewrite Hx, IHq. destruct (a_round a =? r); auto. }
  rewrite Ef. destruct (in_rd r a); simpl; [|auto]. rewrite He'. destruct (exec_i (d a) st); auto.
Qed.
Lemma seq_flat d (f : action -> list action) l : (forall a, In a l -> Forall (fun x => a_round x = a_round a) (f a)) ->
  (forall a st, In a l -> exec_is (map d (f a)) st = exec_i (d a) st) ->
  forall st, exec_seq d (flat_map f l) st = exec_seq d l st.
Proof.
  intros Hr He. unfold exec_seq. generalize (map Z.of_nat (seq 0 255)). induction l0 as [|r rs IH]; intros st; simpl; auto.
  rewrite round_flat by auto. destruct (exec_is (map d (filter (in_rd r) l)) st); auto.
Qed.
Lemma placed_round buf nbuf off a : Forall (fun x => a_round x = a_round a) (placed buf nbuf off a).
Proof. unfold placed. destruct (a_par a); repeat constructor. Qed.
Lemma placed_exec cx l place T oth buf nbuf off a st : Reserving cx l -> In a l -> place nbuf = buf ->
  (forall id, is_new id = true -> (exists o c, rb_ref (a_par a) = Some (id, o, c)) -> place id = buf + off id) ->
  exec_is (map (den2 cx place T oth) (placed buf nbuf off a)) st = exec_i (den2 cx place T oth a) st.
Proof.
  intros R Ha Hb Hp. pose proof (fun p id o c => old_kind cx l a p id o c R Ha) as OK. destruct a as [r p]. unfold placed. cbn [a_par a_round] in *.
  assert (One : forall x y, den2 cx place T oth x = y -> exec_is (map (den2 cx place T oth) [x]) st = exec_i y st) by (intros x y <-; simpl; destruct (exec_i _ st); auto).
  destruct p; try (apply One; reflexivity); try (symmetry; apply skip_step); cbn [rb_ref] in *;
    (destruct (is_new bufID) eqn:En; [|try (exfalso; exact (OK _ _ _ _ eq_refl eq_refl En)); apply One; reflexivity]);
    specialize (Hp bufID En ltac:(eauto)); apply One; unfold den2, den; cbn [a_par oth2]; rewrite ?Hp, ?Hb, ?Z.add_assoc; reflexivity.
Qed.
