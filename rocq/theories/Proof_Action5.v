From Coq Require Import ZArith List Bool Lia Permutation Sorted ZifyBool ZifyNat.
From Verif Require Import Base Model_Transition Model_Action Spec_RangeList Spec_Action Proof_RangeList Proof_RangeList5 Proof_Action1 Proof_Action2 Proof_Action3 Proof_Action4.
Import ListNotations.
Open Scope Z_scope.

(* ---- what sorting keeps ---- *)
Lemma in_round_renum f l a b : Renumbering f l -> In a l -> In b l -> (f (a_round b) = f (a_round a) <-> a_round b = a_round a).
Proof.
  intros [R _] Ha Hb. split; [|congruence]. intros E. destruct (Z.lt_trichotomy (a_round a) (a_round b)) as [H|[H|H]]; auto.
  - pose proof (R a b Ha Hb H). lia.
  - pose proof (R b a Hb Ha H). lia.
Qed.

Lemma filter_map_renum f l m (P : action -> bool) a : Renumbering f l -> In a l -> (forall b, In b m -> In b l) ->
  (forall b, P (renum f b) = P b) ->
  filter (fun b => P b && in_round (f (a_round a)) b) (map (renum f) m) = map (renum f) (filter (fun b => P b && in_round (a_round a) b) m).
Proof.
  intros R Ha Hm HP. induction m as [|b m IH]; [reflexivity|].
  assert (Hb : In b l) by (apply Hm; left; auto). cbn [map filter]. rewrite HP.
  pose proof (in_round_renum f l a b R Ha Hb) as I.
  replace (in_round (f (a_round a)) (renum f b)) with (in_round (a_round a) b) by (unfold in_round; cbn [renum a_round]; lia).
  specialize (IH (fun b0 Hb0 => Hm b0 (or_intror Hb0))).
  destruct (P b && in_round (a_round a) b); cbn [map]; rewrite IH; reflexivity.
Qed.

Lemma sort_keeps cmp q l : is_qsort cmp q ->
  (forall x y, cmp x y <= 0 -> a_round (snd x) <= a_round (snd y)) ->
  (forall a, In a l -> 0 <= a_round a < 255) ->
  exists ch r f, sort_with q l = Ok (ch, r) /\ Renumbering f l /\
    StronglySorted (fun a b => a_round a <= a_round b) r /\
    Permutation (filter not_nop r) (map (renum f) (filter not_nop l)) /\
    (ch = false -> r = l) /\
    (ch = true -> Dense f l /\ forall b, In b r -> not_nop b = true) /\
    (forall a P, In a l -> (forall g b, P (renum g b) = P b) -> (forall b, P b = true -> not_nop b = true) ->
       (forall x y, In x (number l) -> In y (number l) -> a_round (snd x) = a_round (snd y) -> P (snd x) = true -> P (snd y) = true -> cmp x y <= 0 -> fst x <= fst y) ->
       filter (fun b => P b && in_round (f (a_round a)) b) r = map (renum f) (filter (fun b => P b && in_round (a_round a) b) l)).
Proof.
  intros Q Hc Hr. destruct (sort_result cmp q l Q Hc Hr) as (ch & r & f & E & Rf & H).
  exists ch, r, f. split; [auto|]. split; [auto|].
  pose proof (order_perm cmp q l Q) as P.
  assert (So : StronglySorted (fun a b => a_round a <= a_round b) (map snd (q (number l)))).
  { destruct (Q (number l)) as [_ S]. apply (proj1 (ss_map snd (fun a b => a_round a <= a_round b) _)). eapply ss_weaken; [|apply S]. intros x y _ _. apply Hc. }
  assert (St : forall a P0, (forall x y, In x (number l) -> In y (number l) -> a_round (snd x) = a_round (snd y) -> P0 (snd x) = true -> P0 (snd y) = true -> cmp x y <= 0 -> fst x <= fst y) ->
     filter (fun b => P0 b && in_round (a_round a) b) (map snd (q (number l))) = filter (fun b => P0 b && in_round (a_round a) b) l).
  { intros a P0 H0. apply (stable cmp); auto. intros x y Hx Hy Px Py. apply andb_prop in Px, Py. unfold in_round in *. destruct Px as [Px Px'], Py as [Py Py']. apply Z.eqb_eq in Px', Py'. apply H0; auto; congruence. }
  destruct H as [(-> & -> & Eo & Fi)|(-> & -> & D)].
  - assert (Id : forall m, map (renum f) m = m).
    { intros m. rewrite <- (map_id m) at 2. apply map_ext. intros a. apply renum_id. auto. }
    rewrite Eo in So. conjs; auto; try discriminate.
    + rewrite Id. auto.
    + intros a P0 Ha H1 H2 H3. rewrite Id, Fi. auto.
  - assert (Hin : forall b, In b (map snd (q (number l))) -> In b l) by (intros b Hb; eapply Permutation_in; [apply Permutation_sym; eauto|auto]).
    conjs; auto; try discriminate.
    + apply (proj1 (ss_map (renum f) (fun a b => a_round a <= a_round b) _)). eapply ss_weaken; [|apply ss_filter; apply So].
      intros x y Hx Hy Hle. cbv beta in Hle |- *. apply filter_In in Hx, Hy. change (f (a_round x) <= f (a_round y)). destruct (Z.eq_dec (a_round x) (a_round y)) as [Eq|Hn]; [rewrite Eq; apply Z.le_refl|].
      destruct Rf as [R1 _]. assert (Hlt : a_round x < a_round y) by (clear -Hle Hn; lia). pose proof (R1 x y (Hin _ (proj1 Hx)) (Hin _ (proj1 Hy)) Hlt) as Hf. apply Z.lt_le_incl, Hf.
    + rewrite filter_renum by auto. apply Permutation_map. rewrite filter_filter. apply Permutation_sym.
      rewrite (filter_ext (fun x => not_nop x && not_nop x) not_nop) by (intros a; destruct (not_nop a); auto). apply perm_filter; exact P.
    + intros _. split; auto. intros b Hb. apply in_map_iff in Hb. destruct Hb as (a & <- & Ha). apply filter_In in Ha. tauto.
    + intros a P0 Ha H1 H2 H3. rewrite (filter_map_renum f l); auto.
      * f_equal. rewrite <- (St a P0 H3). rewrite filter_filter. apply filter_ext. intros b. destruct (P0 b) eqn:Eb; simpl; [rewrite (H2 b Eb)|]; auto. rewrite andb_false_r; auto.
      * intros b Hb. apply filter_In in Hb. apply Hin. tauto.
Qed.

(* ---- numbers of elements ---- *)
Definition par_count (x : apar) : Z := msg_count (mkAct 0 x).
Lemma msg_count_par a : msg_count a = par_count (a_par a). Proof. destruct a; reflexivity. Qed.

Lemma map_flat_eq {A B} (g : A -> B) (h1 h2 : Z -> list A) rs :
  (forall r, map g (h1 r) = map g (h2 r)) -> map g (flat_map h1 rs) = map g (flat_map h2 rs).
Proof. intros H. induction rs; simpl; auto. rewrite !map_app, H, IHrs. auto. Qed.

Lemma counts_match n seqs (p t : Z) (d : list (action * action)) : Matching n seqs ->
  0 <= p < n -> 0 <= t < n -> p <> t ->
  map (fun x => a_par (fst x)) d = map a_par (sent_all t (seqs p)) /\
  map (fun x => a_par (snd x)) d = map a_par (received_all p (seqs t)) ->
  map (fun x => a_par (fst x)) d = map a_par (sent_all t (seqs p)) /\
  map (fun x => a_par (snd x)) d = map a_par (received_all p (seqs t)) /\
  (forall a b, In (a, b) d -> msg_count a = msg_count b).
Proof.
  intros [M _] Hp Ht Hne [H1 H2]. split; [auto|]. split; [auto|].
  assert (E : map msg_count (sent_all t (seqs p)) = map msg_count (received_all p (seqs t))).
  { apply map_flat_eq. intros r. apply M; auto. }
  assert (E' : map (fun x => msg_count (fst x)) d = map (fun x => msg_count (snd x)) d).
  { rewrite (map_ext (fun x : action * action => msg_count (fst x)) (fun x => par_count (a_par (fst x)))) by (intros; apply msg_count_par).
    rewrite (map_ext (fun x : action * action => msg_count (snd x)) (fun x => par_count (a_par (snd x)))) by (intros; apply msg_count_par).
    rewrite <- (map_map (fun x : action * action => a_par (fst x)) par_count), <- (map_map (fun x : action * action => a_par (snd x)) par_count).
    rewrite H1, H2, !map_map.
    rewrite (map_ext (fun x => par_count (a_par x)) msg_count) by (intros; symmetry; apply msg_count_par). auto. }
  clear H1 H2. induction d as [|x d IH]; simpl; intros a b; [tauto|]. injection E' as E0 E1.
  intros [->|H]; auto.
Qed.

Lemma digits_sort q l ch r : sort_rankdigits q l = Ok (ch, r) -> sort_with q l = Ok (ch, r).
Proof. unfold sort_rankdigits. destruct (digit_abort l); [discriminate|auto]. Qed.

Lemma digit_no_abort l : (forall a, In a l -> isSend a || isRecv a = true) -> digit_abort l = false.
Proof.
  intros H. unfold digit_abort. destruct (existsb _ _) eqn:E; auto. apply existsb_exists in E.
  destruct E as (x & Hx & Ex). apply number_in in Hx. rewrite (H _ Hx) in Ex. discriminate.
Qed.

(* ---- boolean checks, for examples ---- *)
Definition ranks (n : Z) : list Z := map Z.of_nat (seq 0 (Z.to_nat n)).
Lemma ranks_in n p : 0 <= p < n -> In p (ranks n).
Proof. intros. apply in_map_iff. exists (Z.to_nat p). split; [lia|]. apply in_seq. lia. Qed.
Definition seqok_b (n p : Z) (l : list action) : bool :=
  forallb (fun a => (0 <=? a_round a) && (a_round a <? 255) &&
    (local_only a || collective a || existsb (fun q => negb (q =? p) && (sends_to q a || recvs_from q a)) (ranks n))) l.
Lemma seqok_check n p l : seqok_b n p l = true -> SeqOk n p l.
Proof.
  intros H a Ha. unfold seqok_b in H. rewrite forallb_forall in H. specialize (H a Ha).
  apply andb_prop in H. destruct H as [H1 H2]. split; [lia|].
  apply orb_prop in H2. destruct H2 as [H2|H2]; [apply orb_prop in H2; tauto|].
  right. right. apply existsb_exists in H2. destruct H2 as (q & Hq & H2). apply andb_prop in H2. destruct H2 as [H2 H3].
  exists q. apply in_map_iff in Hq. destruct Hq as (k & <- & Hk). apply in_seq in Hk. split; [lia|]. split; [lia|].
  apply orb_prop in H3. auto.
Qed.
Definition match_b (n : Z) (seqs : Z -> list action) : bool :=
  forallb (fun r => forallb (fun p => forallb (fun q =>
    ((p =? q) || (if list_eq_dec Z.eq_dec (map msg_count (sent q r (seqs p))) (map msg_count (received p r (seqs q))) then true else false)) &&
    (length (filter (fun a => collective a && in_round r a) (seqs p)) =? length (filter (fun a => collective a && in_round r a) (seqs q)))%nat)
   (ranks n)) (ranks n)) all_rounds.
Lemma filter_none {A} (f : A -> bool) l : (forall a, In a l -> f a = false) -> filter f l = [].
Proof. induction l; simpl; auto. intros H. rewrite (H a) by auto. auto. Qed.
Lemma match_check n seqs : (forall p, 0 <= p < n -> SeqOk n p (seqs p)) -> match_b n seqs = true -> Matching n seqs.
Proof.
  intros O H. unfold match_b in H. rewrite forallb_forall in H.
  assert (No : forall (P : action -> bool) p r, 0 <= p < n -> ~ In r all_rounds -> filter (fun a => P a && in_round r a) (seqs p) = []).
  { intros P p r Hp Hr. apply filter_none. intros a Ha. destruct (in_round r a) eqn:E; [|apply andb_false_r].
    exfalso. apply Hr. unfold in_round in E. apply Z.eqb_eq in E. subst. destruct (O p Hp a Ha) as [R _].
    apply in_map_iff. exists (Z.to_nat (a_round a)). split; [lia|]. apply in_seq. lia. }
  assert (D : forall r, In r all_rounds \/ ~ In r all_rounds) by (intros r; destruct (in_dec Z.eq_dec r all_rounds); auto).
  split; intros p q r Hp Hq.
  - intros Hne. destruct (D r) as [Hr|Hr]; [|unfold sent, received; rewrite !No by auto; auto].
    specialize (H r Hr). rewrite forallb_forall in H. specialize (H p (ranks_in n p Hp)). rewrite forallb_forall in H. specialize (H q (ranks_in n q Hq)).
    apply andb_prop in H. destruct H as [H _]. destruct (list_eq_dec _ _ _); auto. rewrite orb_false_r in H. lia.
  - destruct (D r) as [Hr|Hr]; [|rewrite !No by auto; auto].
    specialize (H r Hr). rewrite forallb_forall in H. specialize (H p (ranks_in n p Hp)). rewrite forallb_forall in H. specialize (H q (ranks_in n q Hq)).
    apply andb_prop in H. destruct H as [_ H]. apply Nat.eqb_eq. auto.
Qed.

(* orders by a list of keys *)
Fixpoint lexle (x y : list Z) : Prop :=
  match x, y with
  | a :: x', b :: y' => a < b \/ (a = b /\ lexle x' y')
  | _, _ => True
  end.
Lemma lexle_total x : forall y, length x = length y -> lexle x y \/ lexle y x.
Proof. induction x as [|a x IH]; intros [|b y]; simpl; auto; try discriminate. intros H. injection H as H. destruct (Z.lt_trichotomy a b) as [L|[->|L]]; auto. destruct (IH y H); auto. Qed.
Lemma lexle_trans x : forall y z, length x = length y -> length y = length z -> lexle x y -> lexle y z -> lexle x z.
Proof. induction x as [|a x IH]; intros [|b y] [|c z]; simpl; auto; try discriminate. intros H1 H2 [H|[Ea H]] [H'|[Eb H']]; [left; lia|left; lia|left; lia|]. right. split; [congruence|]. eapply IH; [| |apply H|apply H']; congruence. Qed.
Lemma isort_lex {A} (cmp : A -> A -> Z) (k : A -> list Z) m : (forall a, length (k a) = m) ->
  (forall a b, cmp a b <= 0 <-> lexle (k a) (k b)) -> is_qsort cmp (isort cmp).
Proof.
  intros L H. apply isort_is_qsort.
  - intros a b. rewrite !H. apply lexle_total. rewrite !L. auto.
  - intros a b c. rewrite !H. apply lexle_trans; rewrite !L; auto.
Qed.
Lemma isort_2phase p : is_qsort (cmp2phase p) (isort (cmp2phase p)).
Proof.
  apply (isort_lex _ (fun x => [a_round (snd x); phase2 p (snd x); (if phase2 p (snd x) >? 0 then peer0 (snd x) else 0); fst x]) 4); [reflexivity|].
  intros x y. unfold cmp2phase. cbn [lexle].
  generalize (phase2 p (snd x)) (phase2 p (snd y)) (peer0 (snd x)) (peer0 (snd y)) (a_round (snd x)) (a_round (snd y)) (fst x) (fst y). intros a b c d e f g h.
  destruct (e =? f) eqn:E1; cbn [negb]; [|lia]. destruct (a =? b) eqn:E2; cbn [negb]; [|lia].
  assert (a = b) by lia. subst b. destruct (a >? 0); cbn [andb]; [|lia]. destruct (c =? d) eqn:E3; cbn [negb]; lia.
Qed.
Lemma isort_digits p : is_qsort (cmp_rankdigits p) (isort (cmp_rankdigits p)).
Proof.
  apply (isort_lex _ (fun x =>
    let d := if isSend (snd x) || isRecv (snd x) then 1 + diffbit (peer0 (snd x)) p else 0 in
    let one := (d <=? 32) && Z.testbit p (d - 1) in
    [a_round (snd x); d; (if d >? 0 then (if one then (if isSend (snd x) then 2 else 1) else (if isSend (snd x) then 1 else 2)) else 0);
      (if d >? 0 then peer0 (snd x) else 0); fst x]) 5); [reflexivity|].
  intros x y. unfold cmp_rankdigits. cbn [lexle]. cbv zeta.
  generalize (if isSend (snd x) || isRecv (snd x) then 1 + diffbit (peer0 (snd x)) p else 0) (if isSend (snd y) || isRecv (snd y) then 1 + diffbit (peer0 (snd y)) p else 0).
  generalize (peer0 (snd x)) (peer0 (snd y)) (a_round (snd x)) (a_round (snd y)) (fst x) (fst y) (isSend (snd x)) (isSend (snd y)). intros c d e f g h s s' a b.
  destruct (e =? f) eqn:E1; cbn [negb]; [|lia]. destruct (a =? b) eqn:E2; cbn [negb]; [|lia].
  assert (a = b) by lia. subst b. destruct (a >? 0); cbn [andb]; [|lia].
  generalize ((a <=? 32) && Z.testbit p (a - 1)). intros one.
  generalize (if one then if s then 2 else 1 else if s then 1 else 2) (if one then if s' then 2 else 1 else if s' then 1 else 2). intros u v.
  destruct (u =? v) eqn:E3; cbn [negb]; [|lia]. destruct (c =? d) eqn:E4; cbn [negb]; lia.
Qed.
Lemma isort_rounds : is_qsort cmp_rounds (isort cmp_rounds).
Proof.
  apply (isort_lex _ (fun x : aptr => [a_round (snd x); fst x]) 2); [reflexivity|]. intros x y. unfold cmp_rounds. cbn [lexle].
  destruct (_ =? _) eqn:E; cbn [negb]; lia.
Qed.
