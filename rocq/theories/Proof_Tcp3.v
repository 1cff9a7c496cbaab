(* Transfer of the values of a range with the TCP2 backend: sending *)
From Coq Require Import ZArith List Bool Lia ZifyBool ZifyNat.
From Verif Require Import Base ListFacts Model_Space Model_RangeList Model_Mem Model_Layout Model_Transition Model_KVS Model_SpaceStore Model_Tcp2
  Spec_Space Spec_Type Spec_Layout Spec_Tcp2 Proof_Space Proof_Type Proof_RangeList5 Proof_Layout Proof_Layout2 Proof_Layout3 Proof_Layout4 Proof_Layout5 Proof_Layout6 Proof_SpaceStore Proof_Tcp2.
Import ListNotations.
Open Scope Z_scope.


(* events handled and to be handled *)
Lemma complete_firstn n evs : complete n evs = firstn (length (complete n evs)) (map fst evs).
Proof.
  revert n. induction evs as [|[e k] evs IH]; intros n; cbn; auto. destruct (k <=? n); cbn; auto. f_equal. apply IH.
Qed.
Lemma complete_more n n' evs : n <= n' -> exists q, complete n' evs = complete n evs ++ firstn q (skipn (length (complete n evs)) (map fst evs)).
Proof.
  revert n n'. induction evs as [|[e k] evs IH]; intros n n' H; cbn [complete map fst]; [exists 0%nat; auto|].
  destruct (k <=? n) eqn:E.
  - replace (k <=? n') with true by lia. destruct (IH (n - k) (n' - k) ltac:(lia)) as [q Q]. exists q. cbn. f_equal. exact Q.
  - exists (length (complete n' ((e, k) :: evs))). cbn [length skipn app].
    change (e :: map fst evs) with (map fst ((e, k) :: evs)). exact (complete_firstn n' ((e, k) :: evs)).
Qed.
Lemma complete_all n evs : Forall (fun e => 0 <= snd e) evs -> size evs <= n -> complete n evs = map fst evs.
Proof.
  intros H. revert n. induction H as [|[e k] evs H1 H2 IH]; intros n L; cbn; auto. rewrite size_cons in L. cbn [snd] in *. assert (0 <= size evs) by (apply size_nonneg; auto).
  replace (k <=? n) with true by lia. f_equal. apply IH. lia.
Qed.
Lemma complete_less n evs : Forall (fun e => 0 <= snd e) evs -> 0 <= n < size evs -> skipn (length (complete n evs)) (map fst evs) <> [].
Proof.
  intros H. revert n. induction H as [|[e k] evs H1 H2 IH]; intros n L; cbn.
  - unfold size in L. cbn in L. lia.
  - rewrite size_cons in L. cbn [snd] in *. destruct (k <=? n) eqn:E; [|discriminate]. apply IH. lia.
Qed.

Section Keep.
Variable rd : redop -> list Z -> list Z -> outcome (list Z).
Variable X : Type.
Variable other : X -> list Z -> outcome X.
Variable Inv : list event -> pstate X -> Prop.
Hypothesis Hstep : forall ev l s, Inv (ev :: l) s -> exists s', apply_event rd X other s ev = Ok s' /\ Inv l s'.

Lemma apply_keeps q : forall l s, Inv l s -> exists s', apply_events rd X other s (firstn q l) = Ok s' /\ Inv (skipn q l) s'.
Proof.
  induction q as [|q IH]; intros l s H; [exists s; auto|]. destruct l as [|ev l]; [exists s; auto|].
  destruct (Hstep ev l s H) as (s1 & A & B). destruct (IH l s1 B) as (s' & C & D). exists s'. split; auto. cbn [firstn]. unfold apply_events. cbn [ofold]. rewrite A. exact C.
Qed.

Lemma handle_keeps evs : forall ks gs done s, Forall (fun k => 0 <= k) ks -> (forall g l s, In g gs -> Inv l s -> Inv l (g s)) -> length ks = length gs ->
  Inv (skipn (length (complete done evs)) (map fst evs)) s ->
  exists s', handle rd X other evs done s (combine ks gs) = Ok s' /\ Inv (skipn (length (complete (done + zsum ks) evs)) (map fst evs)) s'.
Proof.
  induction ks as [|k ks IH]; intros gs done s Hk Hg Hl H.
  - exists s. cbn [combine handle zsum fold_right]. replace (done + 0) with done by lia. auto.
  - destruct gs as [|g gs]; [discriminate|]. inversion Hk as [|? ? K1 K2]; subst. cbn [combine handle].
    destruct (complete_more done (done + k) evs ltac:(lia)) as [q Q]. set (n := length (complete done evs)) in *.
    assert (Q' : skipn n (complete (done + k) evs) = firstn q (skipn n (map fst evs))).
    { rewrite Q, skipn_app. unfold n. rewrite skipn_all, Nat.sub_diag. reflexivity. }
    rewrite Q'. destruct (apply_keeps q _ s H) as (s1 & A1 & A2). rewrite A1. cbn [obind].
    assert (A3 : Inv (skipn (length (complete (done + k) evs)) (map fst evs)) s1).
    { replace (skipn (length (complete (done + k) evs)) (map fst evs)) with (skipn q (skipn n (map fst evs))); auto.
      rewrite Q, app_length, firstn_length, skipn_length. fold n. rewrite skipn_skipn'.
      destruct (Nat.le_gt_cases (n + q) (length (map fst evs))) as [Le|Gt].
      - f_equal. lia.
      - rewrite !skipn_all2 by lia. reflexivity. }
    destruct (IH gs (done + k) (g s1)) as (s' & B1 & B2); auto.
    + intros g0 l s0 Hin. apply Hg. now right.
    + apply Hg; [now left|exact A3].
    + exists s'. split; auto. cbn [zsum fold_right]. fold (zsum ks). replace (done + (k + zsum ks)) with (done + k + zsum ks) by lia. exact B2.
Qed.
End Keep.

(* facts about reads *)
Lemma reads_facts X total : forall steps arr got ks, got <= arr -> arr <= total -> ReadsOk X total arr got steps ks ->
  Forall (fun k => 0 <= k) ks /\ length ks = length steps /\ got + zsum ks <= total.
Proof.
  induction steps as [|[n g] steps IH]; intros arr got ks H H1 H2; destruct ks as [|k ks]; cbn [ReadsOk] in H2; try contradiction.
  - conjs; auto. cbn [zsum fold_right]. lia.
  - destruct H2 as (K1 & K2 & K3 & K4). assert (IHK := fun A B => IH _ _ _ A B K4). destruct (IHK ltac:(lia) ltac:(lia)) as (A & B & C). conjs; [constructor; auto|cbn; congruence|]. cbn [zsum fold_right]. fold (zsum ks). lia.
Qed.

(* everything is read in the end *)
Lemma reads_end X total : forall steps got ks, 0 <= got <= total -> ReadsOk X total total got steps ks -> total - got <= zlen steps -> got + zsum ks = total.
Proof.
  induction steps as [|[n g] steps IH]; intros got ks H H2 H3; destruct ks as [|k ks]; cbn [ReadsOk] in H2; try contradiction; cbn [zsum fold_right].
  - unfold zlen in H3. cbn in H3. lia.
  - destruct H2 as (K1 & K2 & K3 & K4). replace (Z.min total (total + Z.of_nat n)) with total in K2, K3, K4 by lia. rewrite zlen_cons in H3. pose proof (zlen_nonneg steps).
    fold (zsum ks). assert (E := IH (got + k) ks ltac:(lia) K4 ltac:(lia)). lia.
Qed.
Lemma reads_all X total : forall st1 st2 arr got ks, 0 <= got <= arr -> arr <= total -> ReadsOk X total arr got (st1 ++ st2) ks ->
  total <= arr + arrivals st1 -> total <= zlen st2 -> got + zsum ks = total.
Proof.
  induction st1 as [|[n g] st1 IH]; intros st2 arr got ks H H1 H2 H3 H4.
  - unfold arrivals in H3. cbn in H3. assert (arr = total) by lia. subst arr. apply (reads_end X total st2); auto. lia.
  - destruct ks as [|k ks]; cbn [app ReadsOk] in H2; [contradiction|]. destruct H2 as (K1 & K2 & K3 & K4).
    unfold arrivals in H3. cbn [map zsum fold_right fst] in H3. cbn [zsum fold_right]. fold (zsum ks).
    assert (Pos : 0 <= arrivals st1). { clear. unfold arrivals, zsum. induction st1; cbn [map fold_right]; lia. }
    assert (IHK := fun A B => IH st2 _ (got + k) ks A B K4). assert (E := IHK ltac:(lia) ltac:(lia)). rewrite <- E; [lia| |lia].
    change (fold_right Z.add 0 (map (fun st => Z.of_nat (fst st)) st1)) with (arrivals st1) in H3. lia.
Qed.

(* ---------- the events of a transfer ---------- *)

Section Transfer.
Variables (d : nat) (es : Z) (L : list index) (ev : index -> list Z).

(* [EvOk j l]: the events deliver the values from the [j]-th index on *)
Inductive EvOk : nat -> list event -> Prop :=
| EvEnd : EvOk (length L) []
| EvHead j n l : (j < length L)%nat -> EvOk j l -> EvOk j (EHead es n :: l)
| EvElem j i more l : nth_error L j = Some i -> (more = true -> (S j < length L)%nat) -> EvOk (S j) l -> EvOk j (EElem (ev i) more :: l)
| EvCmd j i c l : nth_error L j = Some i -> data_cmd (Z.of_nat j) d i (ev i) = Ok c -> EvOk (S j) l -> EvOk j (ECmd c :: l).

Lemma EvOk_pos j e l : EvOk j (e :: l) -> (j < length L)%nat.
Proof. intros H. inversion H; subst; auto; apply nth_error_Some; congruence. Qed.

Hypothesis Hev : forall i, zlen (ev i) = es.

Lemma nth_skip {A} (l : list A) j x r : skipn j l = x :: r -> nth_error l j = Some x /\ skipn (S j) l = r.
Proof.
  revert l. induction j as [|j IH]; intros l H; cbn in H; [subst; auto|]. destruct l as [|y l]; [discriminate|]. apply IH in H. cbn. tauto.
Qed.

Lemma elems_ok : forall g j l, g <> [] -> forall R, skipn j L = g ++ R -> EvOk (j + length g) l -> EvOk j (map fst (elem_events (map ev g)) ++ l).
Proof.
  induction g as [|i g IH]; intros j l Hne R HR Hl; [congruence|]. cbn [app] in HR. destruct (nth_skip _ _ _ _ HR) as [N1 N2].
  destruct g as [|i2 g].
  - cbn in *. apply (EvElem j i); [auto|intros C; discriminate C|]. replace (S j) with (j + 1)%nat by lia. exact Hl.
  - change (map fst (elem_events (map ev (i :: i2 :: g))) ++ l) with (EElem (ev i) true :: map fst (elem_events (map ev (i2 :: g))) ++ l).
    apply (EvElem j i); auto.
    + intros _. destruct (nth_skip _ _ _ _ N2) as [N3 _]. apply nth_error_Some. congruence.
    + apply IH with (R := R); auto; [discriminate|]. cbn [length] in *. replace (S j + S (length g))%nat with (j + S (S (length g)))%nat by lia. exact Hl.
Qed.

Lemma groups_ok : forall G j, Forall (fun g => g <> []) G -> skipn j L = concat G -> (j <= length L)%nat ->
  EvOk j (map fst (events (map (fun g => IFrame es (map ev g)) G))).
Proof.
  induction G as [|g G IH]; intros j HG Hc Hj.
  - cbn in *. assert (length (skipn j L) = 0%nat) by (rewrite Hc; reflexivity). rewrite skipn_length in H. replace j with (length L) by lia. constructor.
  - inversion HG as [|? ? G1 G2]; subst. cbn [concat] in Hc. unfold events. cbn [map flat_map item_events app fst]. rewrite map_app.
    assert (Hl : length (skipn j L) = (length g + length (concat G))%nat) by (rewrite Hc, app_length; reflexivity). rewrite skipn_length in Hl.
    assert (0 < length g)%nat by (destruct g; [congruence|cbn; lia]).
    apply EvHead; [lia|]. apply elems_ok with (R := concat G); auto. apply IH; auto; [|lia].
    rewrite <- skipn_skipn', Hc, skipn_app, skipn_all, Nat.sub_diag. reflexivity.
Qed.

Definition frames (G : list (list index)) : list item := map (fun g => IFrame es (map ev g)) G.
Definition GroupOk (g : list index) : Prop := g <> [] /\ es * zlen g <= 8189.
Lemma frames_ok G : 0 < es <= 8189 -> Forall GroupOk G -> Forall ItemOk (frames G).
Proof.
  intros He H. unfold frames. rewrite Forall_map. eapply Forall_impl; [|exact H]. intros g [G1 G2]. cbn. conjs; try lia.
  - rewrite Forall_map. apply Forall_forall. intros. apply Hev.
  - unfold zlen in *. rewrite map_length. lia.
Qed.
Lemma stream_app a b : stream (a ++ b) = stream a ++ stream b. Proof. apply flat_map_app. Qed.
End Transfer.

(* ---------- the sender ---------- *)

Section Send.
Variables (sp : space) (b : box) (mp : lmap) (B : box) (N : Z) (m : mem) (lid : Z).
Local Notation d := (sp_dims sp).
Local Notation es := (lm_es mp).
Local Notation L := (lexlist d b).
Hypothesis Hd : valid_dims d.
Hypothesis HG : GoodMap sp mp B N.
Hypothesis Hne : NonEmpty d b.
Hypothesis Hsub : SubBox d b B.
Hypothesis Hlid : 0 <= lid.

Definition val (i : index) : list Z := mread m (adr d mp B i) (Z.to_nat es).
Lemma es_pos' : 0 < es. Proof. destruct HG as (_ & _ & _ & H & _). exact H. Qed.
Lemma val_len i : zlen (val i) = es.
Proof. pose proof es_pos'. unfold val, zlen. rewrite mread_length. lia. Qed.
Lemma val_can i : val (can d i) = val i.
Proof. unfold val, adr. rewrite boff_can. reflexivity. Qed.

(* the state of the send buffer: frames written, elements in it *)
Definition SbOk (o : sbuf) (G : list (list index)) (D : list index) : Prop :=
  sb_out o = stream (frames es val G) /\ sb_data o = concat (map val D) /\ Forall (GroupOk es) G /\ es * zlen D <= 8189 /\
  sb_to o = match D with [] => -1 | _ => lid end.

Lemma flush_ok o G D : D <> [] -> SbOk o G D -> exists o', bin_flush lid o = Ok o' /\ SbOk o' (G ++ [D]) [].
Proof.
  intros HD (A1 & A2 & A3 & A4 & A5). unfold bin_flush. destruct D as [|i D]; [congruence|]. rewrite A5, Z.eqb_refl. cbn [cassert]. eexists. split; [reflexivity|].
  unfold SbOk. cbn [sb_out sb_data sb_to]. conjs; auto.
  - unfold frames. rewrite map_app, stream_app, A1. f_equal. unfold stream. cbn [map flat_map item_bytes]. rewrite app_nil_r, A2.
    rewrite (zlen_concat es). + unfold zlen. cbn [length map]. rewrite !map_length. reflexivity. + rewrite Forall_map. apply Forall_forall. intros. apply val_len.
  - apply Forall_app. split; auto. constructor; auto. split; auto.
  - unfold zlen. cbn. lia.
Qed.

Lemma add_ok o G D i : es <= 8189 -> SbOk o G D -> exists o' G' D', bin_add lid o (val i) = Ok o' /\ SbOk o' G' D' /\ D' <> [] /\ concat G' ++ D' = (concat G ++ D) ++ [i].
Proof.
  intros Hes HS. pose proof es_pos' as Hp. unfold bin_add. rewrite val_len.
  assert (Hz : forall D, zlen (concat (map val D)) = es * zlen D).
  { intros D0. rewrite (zlen_concat es). - unfold zlen. rewrite map_length. reflexivity. - rewrite Forall_map. apply Forall_forall. intros. apply val_len. }
  assert (S0 := HS). destruct S0 as (A1 & A2 & A3 & A4 & A5). rewrite A2, Hz.
  change sbuf_len with 8192. destruct (3 + es * zlen D + es >? 8192) eqn:E.
  - assert (HD : D <> []) by (intros ->; unfold zlen in E; cbn in E; lia).
    destruct (flush_ok o G D HD HS) as (o1 & F1 & F2). rewrite F1. cbn [obind]. destruct F2 as (B1 & B2 & B3 & B4 & B5). rewrite B5. change (-1 <? 0) with true. cbn [orb cassert].
    rewrite B2. cbn [map concat]. change (zlen (@nil Z)) with 0. replace (3 + 0 + es >? 8192) with false by lia.
    eexists. exists (G ++ [D]), [i]. split; [reflexivity|]. split; [|split; [discriminate|]].
    + unfold SbOk. cbn [sb_out sb_data sb_to map concat app]. rewrite app_nil_r. conjs; auto. change (zlen [i]) with 1. lia.
    + rewrite concat_app. cbn. rewrite app_nil_r. reflexivity.
  - cbn [obind]. assert (Hto : ((sb_to o <? 0) || (sb_to o =? lid)) = true) by (rewrite A5; destruct D; [reflexivity|]; rewrite Z.eqb_refl; apply orb_true_r).
    rewrite Hto. cbn [cassert]. rewrite A2, Hz, E. eexists. exists G, (D ++ [i]). split; [reflexivity|]. split; [|split; [destruct D; discriminate|]].
    + unfold SbOk. cbn [sb_out sb_data sb_to]. conjs; auto.
      * rewrite map_app, concat_app. cbn. rewrite app_nil_r. reflexivity.
      * rewrite zlen_app. change (zlen [i]) with 1. lia.
      * destruct (D ++ [i]) eqn:E2; auto. destruct D; discriminate.
    + rewrite app_assoc. reflexivity.
Qed.

Lemma send_bin_loop : es <= 8189 -> forall fuel i n o G D, InBox d i b -> (length (lexfrom d b i) <= fuel)%nat -> SbOk o G D ->
  exists o' G' D', send_loop fuel true lid d b mp m i n o = Ok (o', n + zlen (lexfrom d b i)) /\ SbOk o' G' D' /\ D' <> [] /\ concat G' ++ D' = (concat G ++ D) ++ lexfrom d b i.
Proof.
  intros Hes. induction fuel as [|fuel IH]; intros i n o G D Hi Hf HS.
  - rewrite lexfrom_step in Hf by auto. cbn in Hf. lia.
  - cbn [send_loop]. assert (HiB : InBox d i B) by (apply Hsub; auto).
    destruct HG as (G1 & G2 & G3 & G4 & G5 & G6). rewrite (offset_ok sp _ _ B i Hd G1 G2 HiB). cbn [obind].
    change (mread m (lm_start mp + boff d B i * es) (Z.to_nat es)) with (val i). rewrite <- (val_can i).
    destruct (add_ok o G D (can d i) Hes HS) as (o1 & G' & D' & A1 & A2 & A3 & A4). rewrite A1. cbn [obind].
    rewrite (lexfrom_step d b i Hd Hi) in *. destruct (next_lex d b i) as [[] j] eqn:E.
    + cbn [length] in Hf. destruct (IH j (n + 1) o1 G' D') as (o2 & G'' & D'' & C1 & C2 & C3 & C4); auto; [eapply next_lex_in; eauto|lia|].
      exists o2, G'', D''. conjs; auto; [rewrite C1, zlen_cons; do 2 f_equal; lia|]. rewrite C4, A4, <- !app_assoc. reflexivity.
    + exists o1, G', D'. conjs; auto.
Qed.

(* text mode *)
Lemma print_nat_range n : forall z, 0 <= z -> Forall (fun c => 48 <= c <= 57) (print_nat n z).
Proof.
  intros z Hz. assert (H := print_nat_digits n z Hz). eapply Forall_impl; [|exact H]. intros c. unfold is_digit. lia.
Qed.
Lemma print_dec_range z : 0 <= z -> Forall (fun c => 48 <= c <= 57) (print_dec z).
Proof. intros. unfold print_dec. replace (z <? 0) with false by lia. apply print_nat_range. auto. Qed.

Definition plain (c : Z) : Prop := 32 <= c <= 126.
Lemma print_plain z : 0 <= z -> Forall plain (print_dec z).
Proof. intros. eapply Forall_impl; [|apply print_dec_range; auto]. unfold plain. intros; lia. Qed.
Lemma istr_plain dd i s : istr dd i = Ok s -> Forall plain s.
Proof.
  unfold istr. assert (M : forall z, Forall plain (print_dec (z mod two64))) by (intros; apply print_plain; apply Z.mod_pos_bound; reflexivity).
  destruct (_ <? 50); [|discriminate]. intros E. injection E as <-. assert (P47 : plain 47) by (unfold plain; lia).
  destruct dd as [|[|[|]]]; cbn [app]; rewrite ?Forall_app; conjs; auto; constructor; auto; apply Forall_app; conjs; auto; constructor; auto.
Qed.
Lemma hex_plain e : Forall (fun c => 0 <= c < 256) e -> Forall plain (flat_map (fun v => 32 :: hex2 v) e).
Proof.
  induction 1 as [|c e H _ IH]; cbn; auto.
  assert (D : forall v, 0 <= v < 16 -> plain (hexdigit v)) by (intros; unfold hexdigit, plain; destruct (v <? 10) eqn:E; lia).
  constructor; [unfold plain; lia|]. constructor; [apply D; split; [apply Z.div_pos; lia|apply Z.div_lt_upper_bound; lia]|]. constructor; auto. apply D. apply Z.mod_pos_bound. lia.
Qed.
Lemma data_cmd_ok n dd i e c : 0 <= n -> Forall (fun c => 0 <= c < 256) e -> data_cmd n dd i e = Ok c ->
  zlen c < 100 /\ hd 0 c = 100 /\ Forall plain c.
Proof.
  intros Hn He. unfold data_cmd. intros H. apply obind_ok in H. destruct H as (s & S1 & S2).
  destruct (zlen _ <? 100) eqn:E in S2; [|discriminate]. match type of S2 with Ok ?s = _ => assert (Ec : c = s) by congruence end. clear S2. conjs; [rewrite Ec; lia|rewrite Ec; reflexivity|]. rewrite Ec.
  assert (Pl : forall l, Forall (fun c => (32 <=? c) && (c <=? 126) = true) l -> Forall plain l) by (intros l Hl; eapply Forall_impl; [|exact Hl]; unfold plain; intros; lia).
  rewrite !Forall_app. conjs; try solve [apply Pl; repeat constructor].
  - apply print_plain. apply zlen_nonneg.
  - apply print_plain; auto.
  - eapply istr_plain; eauto.
  - apply hex_plain; auto.
Qed.

Lemma cmd_item c : zlen c < 100 -> hd 0 c = 100 -> Forall plain c -> ItemOk (ICmd c) /\ cmd_bytes c = item_bytes (ICmd c).
Proof.
  intros H1 H2 H3. split.
  - cbn. conjs; try lia. eapply Forall_impl; [|exact H3]. unfold plain. intros; lia.
  - unfold cmd_bytes. destruct (last c 0 =? 10) eqn:E; auto. exfalso. destruct c as [|x c]; [discriminate|].
    assert (In (last (x :: c) 0) (x :: c)). { destruct (@exists_last _ (x :: c)) as (l & y & ->); [discriminate|]. rewrite last_last. apply in_or_app. right. now left. }
    rewrite Forall_forall in H3. apply H3 in H. unfold plain in H. lia.
Qed.

Lemma send_text_loop : Forall (fun i => Forall (fun c => 0 <= c < 256) (val i)) L -> forall fuel i n o r, InBox d i b -> 0 <= n -> skipn (Z.to_nat n) L = lexfrom d b i ->
  send_loop fuel false lid d b mp m i n o = Ok r ->
  snd r = n + zlen (lexfrom d b i) /\
  exists its, sb_out (fst r) = sb_out o ++ stream its /\ Forall ItemOk its /\ EvOk d es L val (Z.to_nat n) (map fst (events its)).
Proof.
  intros Hb. induction fuel as [|fuel IH]; intros i n o r Hi Hn Hs HS; [discriminate|]. cbn [send_loop] in HS.
  assert (HiB : InBox d i B) by (apply Hsub; auto).
  destruct HG as (G1 & G2 & G3 & G4 & G5 & G6). rewrite (offset_ok sp _ _ B i Hd G1 G2 HiB) in HS. cbn [obind] in HS.
  change (mread m (lm_start mp + boff d B i * es) (Z.to_nat es)) with (val i) in HS.
  apply obind_ok in HS. destruct HS as (o1 & O1 & O2). apply obind_ok in O1. destruct O1 as (c & C1 & C2). injection C2 as <-.
  rewrite (lexfrom_step d b i Hd Hi) in Hs |- *. destruct (nth_skip _ _ _ _ Hs) as [N1 N2].
  assert (C1' : data_cmd (Z.of_nat (Z.to_nat n)) d (can d i) (val (can d i)) = Ok c).
  { rewrite val_can. replace (Z.of_nat (Z.to_nat n)) with n by lia. rewrite <- C1. unfold data_cmd. f_equal. unfold istr. destruct Hd as [->|[->| ->]]; reflexivity. }
  assert (Hbi : Forall (fun c => 0 <= c < 256) (val (can d i))). { rewrite Forall_forall in Hb. apply Hb. eapply nth_error_In; eauto. }
  destruct (data_cmd_ok _ _ _ _ _ (Nat2Z.is_nonneg _) Hbi C1') as (K1 & K2 & K3). destruct (cmd_item c K1 K2 K3) as [I1 I2].
  destruct (next_lex d b i) as [[] j] eqn:E.
  - destruct (IH j (n + 1) _ r ltac:(eapply next_lex_in; eauto) ltac:(lia) ltac:(replace (Z.to_nat (n + 1)) with (S (Z.to_nat n)) by lia; exact N2) O2) as (R1 & its & R2 & R3 & R4).
    split; [rewrite R1, zlen_cons; lia|]. exists (ICmd c :: its). conjs; [rewrite R2; cbn [sb_out]; rewrite <- app_assoc, I2; reflexivity|constructor; auto|].
    unfold events. cbn [flat_map item_events app map fst]. apply (EvCmd _ _ _ _ _ (can d i)); auto. replace (S (Z.to_nat n)) with (Z.to_nat (n + 1)) by lia. exact R4.
  - injection O2 as <-. cbn [fst snd sb_out]. split; [reflexivity|]. exists [ICmd c]. conjs.
    + rewrite I2. unfold stream. cbn [flat_map]. rewrite app_nil_r. reflexivity.
    + constructor; auto.
    + unfold events. cbn [flat_map item_events app map fst]. apply (EvCmd _ _ _ _ _ (can d i)); auto.
      assert (Hl : length (skipn (S (Z.to_nat n)) L) = 0%nat) by (rewrite N2; reflexivity). rewrite skipn_length in Hl.
      assert (Z.to_nat n < length L)%nat by (apply nth_error_Some; congruence). replace (S (Z.to_nat n)) with (length L) by lia. constructor.
Qed.

Lemma L_len : zlen L = vol d b.
Proof. unfold zlen. apply (Enumerates_count d b L); [apply lexlist_enum; auto|apply vol_count; auto]. Qed.

Lemma from_in : InBox d (b_from b) b. Proof. destruct Hne as [x Hx]. unfold InBox in *. lia. Qed.
Lemma as_int_id n : 0 <= n < 2 ^ 31 -> as_int n = n.
Proof. intros. unfold as_int. rewrite Z.mod_small; [lia|]. change (2 ^ 32) with (2 ^ 31 + 2 ^ 31). lia. Qed.

(* what is sent, if sending succeeds *)
Lemma send_its bin n bytes : HasCount d b n -> n < 2 ^ 31 -> (bin = true -> es <= 8189) -> (bin = false -> Forall (fun i => Forall (fun c => 0 <= c < 256) (val i)) L) ->
  send_range bin lid sp b mp m n es = Ok bytes ->
  exists its, bytes = stream its /\ Forall ItemOk its /\ EvOk d es L val 0 (map fst (events its)).
Proof.
  intros Hc Hn Hb Ht H. assert (Hv := vol_of_count d b n Hd Hne Hc). assert (Hp := vol_pos d b Hd Hne). unfold send_range in H.
  destruct (negb _); [|discriminate]. cbn [cassert] in H. rewrite box_size_vol, <- Hv in H; auto; [|rewrite <- Hv; change two64 with (2 ^ 31 * 2 ^ 33); lia]. cbn [obind] in H.
  rewrite as_int_id, Z.eqb_refl in H by lia. cbn [cassert] in H. rewrite Z.eqb_refl in H. cbn [cassert] in H.
  assert (HL : zlen L = n) by (rewrite L_len; lia).
  destruct bin.
  - destruct (send_bin_loop (Hb eq_refl) (S (Z.to_nat n)) (b_from b) 0 sbuf_init [] []) as (o' & G & D & A1 & A2 & A3 & A4).
    + apply from_in.
    + unfold zlen, lexlist in HL. lia.
    + unfold SbOk, zlen. cbn. conjs; auto; lia.
    + rewrite A1 in H. cbn [obind fst snd] in H. change (lexfrom d b (b_from b)) with L in *. rewrite HL, Z.eqb_refl in H. cbn [cassert] in H.
      destruct (flush_ok o' G D A3 A2) as (o2 & F1 & F2). rewrite F1 in H. cbn [obind] in H. injection H as <-. destruct F2 as (B1 & _ & B3 & _).
      exists (frames es val (G ++ [D])). conjs; auto.
      * apply frames_ok; auto. intros; apply val_len. pose proof es_pos'. pose proof (Hb eq_refl). lia.
      * apply groups_ok; [intros; apply val_len|eapply Forall_impl; [|exact B3]; intros g [? _]; auto| |lia]. rewrite concat_app. cbn [concat skipn]. rewrite app_nil_r. symmetry. exact A4.
  - apply obind_ok in H. destruct H as (r & R1 & R2). apply cassert_ok in R2. destruct R2 as [R2 R3]. cbn [obind] in R3. injection R3 as <-.
    destruct (send_text_loop (Ht eq_refl) _ _ _ _ _ from_in (Z.le_refl 0) eq_refl R1) as (S1 & its & S2 & S3 & S4). exists its. conjs; auto.
Qed.

(* sending in binary mode succeeds *)
Lemma send_bin_total n : HasCount d b n -> n < 2 ^ 31 -> es <= 8189 -> lm_start mp <> 0 -> exists bytes, send_range true lid sp b mp m n es = Ok bytes.
Proof.
  intros Hc Hn Hb Hs. assert (Hv := vol_of_count d b n Hd Hne Hc). assert (Hp := vol_pos d b Hd Hne). unfold send_range.
  replace (lm_start mp =? 0) with false by lia. cbn [cassert negb]. rewrite box_size_vol, <- Hv; auto; [|rewrite <- Hv; change two64 with (2 ^ 31 * 2 ^ 33); lia]. cbn [obind].
  rewrite as_int_id, !Z.eqb_refl by lia. cbn [cassert].
  assert (HL : zlen L = n) by (rewrite L_len; lia).
  destruct (send_bin_loop Hb (S (Z.to_nat n)) (b_from b) 0 sbuf_init [] []) as (o' & G & D & A1 & A2 & A3 & A4).
  - apply from_in.
  - unfold zlen, lexlist in HL. lia.
  - unfold SbOk, zlen. cbn. conjs; auto; lia.
  - rewrite A1. cbn [obind fst snd]. change (lexfrom d b (b_from b)) with L in *. rewrite HL, Z.eqb_refl. cbn [cassert].
    destruct (flush_ok o' G D A3 A2) as (o2 & F1 & F2). rewrite F1. cbn [obind]. eauto.
Qed.
End Send.
