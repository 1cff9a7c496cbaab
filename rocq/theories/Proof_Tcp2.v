(* Framing of the byte streams of the TCP2 backend *)
From Coq Require Import ZArith List Bool Lia ZifyBool ZifyNat.
From Verif Require Import Base ListFacts Model_Space Model_RangeList Model_Mem Model_Layout Model_Transition Model_Tcp2 Spec_Tcp2 Proof_RangeList5.
Import ListNotations.
Open Scope Z_scope.

Lemma zlen_app {A} (a b : list A) : zlen (a ++ b) = zlen a + zlen b.
Proof. unfold zlen. rewrite app_length. lia. Qed.
Lemma zlen_nonneg {A} (a : list A) : 0 <= zlen a. Proof. unfold zlen. lia. Qed.
Lemma zlen_cons {A} (x : A) a : zlen (x :: a) = 1 + zlen a. Proof. unfold zlen. cbn [length]. lia. Qed.
Lemma zlen_nil : zlen (@nil Z) = 0. Proof. reflexivity. Qed.
Lemma zlen_firstn {A} n (l : list A) : (n <= length l)%nat -> zlen (firstn n l) = Z.of_nat n.
Proof. intros. unfold zlen. rewrite firstn_length. lia. Qed.
Lemma zlen_skipn {A} n (l : list A) : (n <= length l)%nat -> zlen (skipn n l) = zlen l - Z.of_nat n.
Proof. intros. unfold zlen. rewrite skipn_length. lia. Qed.
Lemma zlen_concat es (els : list (list Z)) : Forall (fun e => zlen e = es) els -> zlen (concat els) = es * zlen els.
Proof.
  induction 1 as [|e els E _ IH]; [unfold zlen; cbn; lia|]. cbn [concat]. rewrite zlen_app, zlen_cons, IH, E. lia.
Qed.

(* ---------- events and bytes ---------- *)

Definition size (l : list (event * Z)) : Z := fold_right (fun e n => snd e + n) 0 l.
Lemma size_cons e l : size (e :: l) = snd e + size l. Proof. reflexivity. Qed.
Arguments size : simpl never.
Lemma size_nonneg l : Forall (fun e => 0 <= snd e) l -> 0 <= size l.
Proof. induction 1 as [|e l H _ IH]; [unfold size; cbn; lia|]. rewrite size_cons. lia. Qed.
Lemma size_app a b : size (a ++ b) = size a + size b.
Proof. unfold size. induction a; cbn [app fold_right]; [lia|]. rewrite IHa. lia. Qed.

(* the first event of l is not complete with n bytes *)
Definition Partial (n : Z) (l : list (event * Z)) : Prop := match l with [] => n = 0 | e :: _ => 0 <= n < snd e end.

Lemma complete_split D R n : Forall (fun e => 0 <= snd e) D -> Partial (n - size D) R -> complete n (D ++ R) = map fst D.
Proof.
  revert n. induction D as [|[e k] D IH]; intros n HD HP; cbn in *.
  - change (size []) with 0 in HP. destruct R as [|[e k] R]; auto. cbn in *. destruct (k <=? n) eqn:E; auto. lia.
  - inversion HD as [|? ? H1 H2]; subst. cbn in H1. assert (S0 := size_nonneg D H2). rewrite size_cons in HP. cbn [snd] in HP.
    assert (k <= n). { destruct R as [|[e' k'] R]; cbn in HP; lia. }
    replace (k <=? n) with true by lia. f_equal. apply IH; auto. replace (n - k - size D) with (n - (k + size D)) by lia. auto.
Qed.

(* where a receiver is in a stream: before an item, or within a frame *)
Inductive pos := PI (its : list item) | PF (es : Z) (els : list (list Z)) (its : list item).
Definition pbytes (p : pos) : list Z := match p with PI its => stream its | PF _ els its => concat els ++ stream its end.
Definition pevents (p : pos) : list (event * Z) := match p with PI its => events its | PF _ els its => elem_events els ++ events its end.
Definition pbin (p : pos) : Z := match p with PI _ => 0 | PF es els _ => es * zlen els end.
Definition POk (p : pos) : Prop :=
  match p with
  | PI its => Forall ItemOk its
  | PF es els its => els <> [] /\ 0 < es <= 8192 /\ Forall (fun e => zlen e = es) els /\ Forall ItemOk its
  end.

Lemma elem_size es els : Forall (fun e => zlen e = es) els -> size (elem_events els) = es * zlen els.
Proof. induction 1 as [|e els E _ IH]; [unfold size, zlen; cbn; lia|]. cbn [elem_events]. rewrite size_cons. cbn [snd]. rewrite IH, zlen_cons, E. lia. Qed.
Lemma elem_nonneg els : Forall (fun e : event * Z => 0 <= snd e) (elem_events els).
Proof. induction els; cbn; constructor; auto. cbn. apply zlen_nonneg. Qed.
Lemma events_nonneg its : Forall (fun e : event * Z => 0 <= snd e) (events its).
Proof.
  induction its as [|[c|es els] its IH]; cbn; auto.
  - constructor; auto. cbn. pose proof (zlen_nonneg c). lia.
  - constructor; cbn; [lia|]. apply Forall_app. split; auto. apply elem_nonneg.
Qed.
Lemma pevents_nonneg p : Forall (fun e : event * Z => 0 <= snd e) (pevents p).
Proof. destruct p; cbn; [apply events_nonneg|apply Forall_app; split; [apply elem_nonneg|apply events_nonneg]]. Qed.

Lemma size_events its : Forall ItemOk its -> size (events its) = zlen (stream its).
Proof.
  induction 1 as [|[c|es els] its Hi _ IH]; auto; unfold events, stream in *; cbn [flat_map item_events item_bytes]; rewrite size_app, zlen_app, IH.
  - rewrite size_cons, zlen_app. change (zlen [10]) with 1. cbn [snd]. unfold size. cbn. lia.
  - destruct Hi as (_ & H & _). rewrite size_cons. cbn [snd]. rewrite (elem_size es) by auto.
    rewrite zlen_app, (zlen_concat es) by auto. change (zlen [66; _; _]) with 3. lia.
Qed.
Lemma size_pevents p : POk p -> size (pevents p) = zlen (pbytes p).
Proof.
  destruct p as [its|es els its]; cbn; [apply size_events|]. intros (A & B & C & D). rewrite size_app, zlen_app, size_events, (elem_size es), (zlen_concat es) by auto. reflexivity.
Qed.

(* events have at most as many bytes as the buffer *)
Lemma first_size p e l : POk p -> pevents p = e :: l -> snd e <= 8192.
Proof.
  destruct p as [its|es els its]; cbn.
  - intros H E. destruct its as [|[c|es els] its]; cbn in E; [discriminate| |]; injection E as <- <-; inversion H as [|? ? H1 H2]; subst; cbn in *; lia.
  - intros (A & B & C & D) E. destruct els as [|e0 els]; [congruence|]. cbn in E. injection E as <- <-. inversion C; subst. cbn. lia.
Qed.

Lemma elem_events_split k els : elem_events els = firstn k (elem_events els) ++ elem_events (skipn k els).
Proof.
  revert els. induction k; intros els; [reflexivity|]. destruct els as [|e els]; [reflexivity|]. cbn. f_equal. apply IHk.
Qed.

Section Run.
Variable rd : redop -> list Z -> list Z -> outcome (list Z).
Variable X : Type.
Variable other : X -> list Z -> outcome X.
Notation apply_events := (apply_events rd X other).
Notation apply_event := (apply_event rd X other).
Notation got_bin := (got_bin rd X).
Notation rb_loop := (rb_loop rd X other).

Definition PReady (p : pos) (s : pstate X) : Prop := match p with PI _ => True | PF es _ _ => readyb X es s = true end.

Lemma put_elem_keeps p m e q : put_elem rd p m e = Ok q ->
  pr_off (fst (fst q)) = pr_off p + 1 /\ pr_count (fst (fst q)) = pr_count p /\ pr_es (fst (fst q)) = pr_es p /\ pr_map (fst (fst q)) = pr_map p.
Proof.
  unfold put_elem. destruct (pr_map p) as [mp|] eqn:E; [|discriminate]. intros H. apply obind_ok in H. destruct H as (off & _ & H). apply obind_ok in H. destruct H as (v & _ & H).
  destruct (next_lex _ _ _) as [more i]. injection H as <-. cbn. auto.
Qed.

Lemma gb_run es : 0 < es -> forall els buf t x p m fuel cons s' k,
  Forall (fun e => zlen e = es) els -> buf ++ t = concat els -> (k = Z.to_nat (zlen buf / es))%nat -> (length buf <= fuel)%nat ->
  pr_es p = es -> (els <> [] -> readyb X es (x, p, m) = true) ->
  apply_events (x, p, m) (map fst (firstn k (elem_events els))) = Ok s' ->
  exists p' m', s' = (x, p', m') /\ gb_loop rd fuel es p m true buf cons = Ok (p', m', cons + Z.of_nat k * es) /\ pr_es p' = es /\
    (pr_off p <= pr_count p -> pr_off p' <= pr_count p') /\
    (skipn k els <> [] -> readyb X es s' = true).
Proof.
  intros Hes. induction els as [|e els IH]; intros buf t x p m fuel cons s' k HE HB Hk Hf Hp Hr HA.
  - cbn in HB. apply app_eq_nil in HB. destruct HB as [-> ->]. rewrite zlen_nil in Hk. change (0 / es) with 0 in Hk. cbn in Hk. subst k. cbn in HA. injection HA as <-.
    exists p, m. conjs; auto. destruct fuel; cbn [gb_loop]; rewrite zlen_nil; replace (0 <? es) with true by lia; f_equal; f_equal; lia.
  - assert (E1 : zlen e = es /\ Forall (fun e => zlen e = es) els) by (inversion HE; auto). destruct E1 as [E1 E2]. clear HE.
    assert (Hp' : pr_es p = zlen e) by congruence. clear Hp. subst es k. assert (Hready := Hr ltac:(discriminate)).
    destruct (zlen buf <? zlen e) eqn:Es.
    + rewrite Z.div_small in HA by (pose proof (zlen_nonneg buf); lia). cbn in HA. injection HA as <-. exists p, m.
      rewrite Z.div_small by (pose proof (zlen_nonneg buf); lia). cbn [Z.to_nat skipn]. conjs; auto.
      destruct fuel; cbn [gb_loop]; rewrite Es; f_equal; f_equal; cbn; lia.
    + assert (Hk1 : (Z.to_nat (zlen buf / zlen e) = S (Z.to_nat ((zlen buf - zlen e) / zlen e)))%nat).
      { replace (zlen buf) with (zlen buf - zlen e + 1 * zlen e) at 1 by lia. rewrite Z.div_add by lia.
        assert (0 <= (zlen buf - zlen e) / zlen e) by (apply Z.div_pos; lia). lia. }
      rewrite Hk1 in *. cbn [elem_events firstn map fst] in HA.
      set (more := match els with [] => false | _ => true end) in *.
      unfold Spec_Tcp2.apply_events in HA. cbn [ofold] in HA. apply obind_ok in HA. destruct HA as (s1 & A1 & A2).
      unfold Spec_Tcp2.apply_event in A1. rewrite Hready in A1. apply obind_ok in A1. destruct A1 as (q & Q1 & Q2).
      destruct (_ && _) eqn:EG in Q2; [|discriminate]. injection Q2 as <-.
      apply andb_prop in EG. destruct EG as [G1 G2]. apply eqb_prop in G1.
      destruct (put_elem_keeps _ _ _ _ Q1) as (K1 & K2 & K3 & K4).
      (* the buffer starts with e *)
      assert (HB1 : firstn (Z.to_nat (zlen e)) buf = e /\ skipn (Z.to_nat (zlen e)) buf ++ t = concat els).
      { cbn [concat] in HB. assert (L : (length e <= length buf)%nat) by (unfold zlen in Es; lia).
        replace (Z.to_nat (zlen e)) with (length e) by (unfold zlen; lia).
        assert (F : firstn (length e) (buf ++ t) = e) by (rewrite HB, firstn_app, firstn_all, Nat.sub_diag, firstn_O, app_nil_r; reflexivity).
        assert (G : skipn (length e) (buf ++ t) = concat els) by (rewrite HB, skipn_app, skipn_all, Nat.sub_diag; reflexivity).
        rewrite firstn_app in F. rewrite skipn_app in G. replace (length e - length buf)%nat with 0%nat in F, G by lia. rewrite firstn_O, app_nil_r in F. cbn in G. auto. }
      destruct HB1 as [B1 B2]. assert (Lb : (length e <= length buf)%nat) by (unfold zlen in Es; lia).
      assert (He0 : (0 < length e)%nat) by (unfold zlen in Hes; lia).
      destruct fuel as [|fuel]; [lia|]. cbn [gb_loop]. rewrite Es. cbn [cassert]. rewrite B1, Q1. cbn [obind].
      set (k' := Z.to_nat ((zlen buf - zlen e) / zlen e)) in *.
      assert (Hzs : zlen (skipn (Z.to_nat (zlen e)) buf) = zlen buf - zlen e) by (rewrite zlen_skipn; unfold zlen in *; lia).
      destruct q as [[p1 m1] more1]. cbn [fst snd] in *.
      destruct els as [|e2 els'].
      * (* last element *)
        cbn in B2. apply app_eq_nil in B2. destruct B2 as [B2 B3]. rewrite B2 in *. rewrite zlen_nil in Hzs.
        assert (k' = 0%nat) by (unfold k'; replace (zlen buf - zlen e) with 0 by lia; reflexivity).
        cbn [elem_events firstn map] in A2. rewrite firstn_nil in A2. cbn in A2. injection A2 as <-.
        exists p1, m1. conjs; auto.
        -- destruct fuel; cbn [gb_loop]; rewrite zlen_nil; replace (0 <? zlen e) with true by lia; f_equal; f_equal; lia.
        -- congruence.
        -- intros. unfold readyb in Hready. cbn [fst snd] in Hready. lia.
        -- cbn [skipn]. rewrite skipn_nil. intros C; contradiction.
      * assert (Hr1 : readyb X (zlen e) (x, p1, m1) = true) by (unfold more in G2; cbn in G2; exact G2).
        assert (M1 : more1 = true). { rewrite G1. unfold readyb in Hr1. cbn [fst snd] in Hr1. lia. }
        subst more1. 
        destruct (IH (skipn (Z.to_nat (zlen e)) buf) t x p1 m1 fuel (cons + zlen e) s' k' E2 B2) as (p' & m' & R1 & R2 & R3 & R4 & R5); auto.
        -- unfold k'. rewrite Hzs. reflexivity.
        -- rewrite skipn_length. unfold zlen. lia.
        -- congruence.
        -- exists p', m'. conjs; auto; [rewrite M1, R2; f_equal; f_equal; lia|]. intros. apply R4. unfold readyb in Hready. cbn [fst snd] in Hready. lia.
Qed.

Lemma ready_waiting es x p m : readyb X es (x, p, m) = true -> waiting p = true /\ pr_es p = es /\ pr_off p < pr_count p /\ exists mp, pr_map p = Some mp.
Proof.
  unfold readyb, waiting. cbn [fst snd]. intros H. destruct (pr_map p) as [mp|]; [|rewrite andb_false_r in H; discriminate]. conjs; try lia. eauto.
Qed.

Lemma got_bin_run es els buf t s s' k : 0 < es -> els <> [] -> Forall (fun e => zlen e = es) els -> buf ++ t = concat els ->
  (k = Z.to_nat (zlen buf / es))%nat -> readyb X es s = true ->
  apply_events s (map fst (firstn k (elem_events els))) = Ok s' ->
  got_bin s buf = Ok (s', Z.of_nat k * es) /\ (skipn k els <> [] -> readyb X es s' = true).
Proof.
  intros Hes Hne HE HB Hk Hr HA. destruct s as [[x p] m]. destruct (ready_waiting _ _ _ _ Hr) as (W1 & W2 & W3 & mp & W4).
  destruct (gb_run es Hes els buf t x p m (length buf) 0 s' k HE HB Hk (le_n _) W2 (fun _ => Hr) HA) as (p' & m' & R1 & R2 & R3 & R4 & R5).
  split; [|exact R5]. unfold got_bin, got_binary_data. rewrite W1. cbn [negb]. rewrite W4, W2, R2. cbn [obind fst snd].
  replace (pr_off p' <=? pr_count p') with true by lia. cbn [cassert obind fst snd]. rewrite R1. f_equal.
Qed.

(* what is left of a buffer, of which the first part of a stream consists *)
Lemma app_prefix {A} (a b c d : list A) : a ++ b = c ++ d -> (length a <= length c)%nat -> exists e, c = a ++ e /\ b = e ++ d.
Proof.
  revert c. induction a as [|x a IH]; intros c H L; cbn in *; [exists c; auto|]. destruct c as [|y c]; cbn in *; [lia|]. injection H as <- H.
  destruct (IH c H ltac:(lia)) as (e & -> & ->). exists e. auto.
Qed.

Definition PendOk (p : pos) (pend : list Z) : Prop :=
  match pend, p with [], _ => True | _, PI (ICmd c :: _) => exists c', c = pend ++ c' | _, _ => False end.

Lemma pend_partial p pend : POk p -> PendOk p pend -> Partial (zlen pend) (pevents p).
Proof.
  intros HP HQ. destruct pend as [|x pend].
  - rewrite zlen_nil. destruct p as [its|es els its]; cbn in *.
    + destruct its as [|[c|es els] its]; cbn; auto; try lia. pose proof (zlen_nonneg c). lia.
    + destruct HP as (A & B & C & D). destruct els as [|e els]; [congruence|]. cbn. inversion C; subst. lia.
  - destruct p as [[|[c|] its]|]; cbn in HQ; try contradiction. destruct HQ as [c' ->].
    change (0 <= zlen (x :: pend) < zlen ((x :: pend) ++ c') + 1). rewrite zlen_app.
    pose proof (zlen_nonneg c'). pose proof (zlen_nonneg (x :: pend)). lia.
Qed.

Lemma rb_run : forall fuel p pend rest t, POk p -> (pend ++ rest) ++ t = pbytes p -> PendOk p pend -> (length rest <= fuel)%nat ->
  exists D p' here, pevents p = D ++ pevents p' /\ POk p' /\ zlen (pend ++ rest) = size D + zlen here /\ here ++ t = pbytes p' /\ Partial (zlen here) (pevents p') /\
  forall s, PReady p s -> forall s', apply_events s (map fst D) = Ok s' -> rb_loop fuel s (pbin p) pend rest = Ok (s', mkFd here (pbin p')) /\ PReady p' s'.
Proof.
  induction fuel as [|fuel IH]; intros p pend rest t HP HB HQ Hf.
  { destruct rest; [|cbn in Hf; lia]. clear Hf.
    assert (Hpart := pend_partial p pend HP HQ).
    exists [], p, pend. rewrite app_nil_r in *. conjs; auto. intros s Hs s' HA. cbn in HA. injection HA as <-. split; auto. }
  destruct rest as [|c r].
  { assert (Hpart := pend_partial p pend HP HQ).
    exists [], p, pend. rewrite app_nil_r in *. conjs; auto. intros s Hs s' HA. cbn in HA. injection HA as <-. split; auto. }
  cbn [length] in Hf.
  destruct p as [its|es els its].
  - (* before an item *)
    destruct its as [|[cm|es els] its].
    + cbn in HB. destruct pend; discriminate.
    + (* in a command *)
      assert (HP0 : ItemOk (ICmd cm) /\ Forall ItemOk its) by (inversion HP; auto). destruct HP0 as [(I1 & I2 & I3) HP'].
      assert (HQ' : exists c', cm = pend ++ c'). { destruct pend; [exists cm; auto|exact HQ]. } destruct HQ' as [c' Hcm].
      assert (HB' : (c :: r) ++ t = c' ++ [10] ++ stream its).
      { unfold pbytes, stream in HB. cbn [flat_map item_bytes] in HB. rewrite Hcm, <- !app_assoc in HB. apply app_inv_head in HB. exact HB. }
      assert (Hhd : (hd 0 (pend ++ c :: r) =? 66) = false).
      { destruct pend as [|x pend]; cbn.
        - destruct c' as [|y c']; cbn in HB'; injection HB' as -> HB'; [reflexivity|]. rewrite Hcm in I2. cbn in I2. lia.
        - rewrite Hcm in I2. cbn in I2. lia. }
      destruct c' as [|y c'].
      * (* end of the command *)
        cbn in HB'. injection HB' as -> HB'. rewrite app_nil_r in Hcm. subst cm.
        destruct (IH (PI its) [] r t HP' HB' I ltac:(lia)) as (D & p' & here & G1 & G2 & G3 & G4 & G5 & G6).
        exists ((ECmd pend, zlen pend + 1) :: D), p', here. conjs; auto.
        -- change (pevents (PI (ICmd pend :: its))) with ((ECmd pend, zlen pend + 1) :: pevents (PI its)). rewrite G1. reflexivity.
        -- change (size ((ECmd pend, zlen pend + 1) :: D)) with (zlen pend + 1 + size D). rewrite zlen_app, zlen_cons. cbn [app] in G3. lia.
        -- intros s Hs s' HA. cbn [map fst] in HA. unfold Spec_Tcp2.apply_events in HA. cbn [ofold] in HA. apply obind_ok in HA. destruct HA as (s1 & A1 & A2). cbn [Spec_Tcp2.apply_event] in A1.
           destruct (G6 s1 I s' A2) as [G7 G8]. split; auto.
           cbn [Model_Tcp2.rb_loop]. change (pbin (PI (ICmd pend :: its))) with 0. change (0 >? 0) with false. rewrite Hhd. change (10 =? 4) with false. change (10 =? 13) with false. change (10 =? 10) with true. cbn iota.
           rewrite A1. cbn [obind]. exact G7.
      * cbn in HB'. injection HB' as -> HB'.
        assert (Iy : y <> 4 /\ y <> 10 /\ y <> 13). { rewrite Forall_forall in I3. apply I3. rewrite Hcm. apply in_or_app. right. now left. }
        destruct (IH (PI (ICmd cm :: its)) (pend ++ [y]) r t) as (D & p' & here & G1 & G2 & G3 & G4 & G5 & G6); auto; try lia.
        -- rewrite <- HB, <- !app_assoc. reflexivity.
        -- assert (E0 : exists c', cm = (pend ++ [y]) ++ c') by (exists c'; rewrite Hcm, <- app_assoc; reflexivity).
           unfold PendOk. destruct (pend ++ [y]); auto.
        -- exists D, p', here. conjs; auto.
           ++ rewrite <- G3, <- app_assoc. reflexivity.
           ++ intros s Hs s' HA. destruct (G6 s I s' HA) as [G7 G8]. split; auto.
              cbn [Model_Tcp2.rb_loop]. change (pbin (PI (ICmd cm :: its))) with 0 in *. change (0 >? 0) with false. rewrite Hhd.
              replace (y =? 4) with false by lia. replace (y =? 13) with false by lia. replace (y =? 10) with false by lia. exact G7.
    + (* frame header *)
      assert (pend = []) by (destruct pend; auto; contradiction). subst pend. cbn [app] in *.
      assert (HP0 : ItemOk (IFrame es els) /\ Forall ItemOk its) by (inversion HP; auto). destruct HP0 as [(I1 & I2 & I3) HP'].
      assert (HB0 := HB). unfold pbytes, stream in HB. cbn [flat_map item_bytes] in HB. rewrite <- !app_assoc in HB. cbn [app] in HB. injection HB as -> HB.
      destruct r as [|b1 [|b2 r]].
      { exists [], (PI (IFrame es els :: its)), [66]. conjs; try reflexivity; auto; [unfold Partial, zlen; cbn; lia|].
        intros s Hs s' HA; cbn in HA; injection HA as <-; split; auto. }
      { exists [], (PI (IFrame es els :: its)), [66; b1]. conjs; try reflexivity; auto; [unfold Partial, zlen; cbn; lia|].
        intros s Hs s' HA; cbn in HA; injection HA as <-; split; auto. }
      cbn [app] in HB. injection HB as -> -> HB.
      assert (Hn : 0 <= es * zlen els) by (pose proof (zlen_nonneg els); nia).
      set (N := es * zlen els) in *.
      set (p1 := match els with [] => PI its | _ => PF es els its end).
      assert (P1 : POk p1 /\ r ++ t = pbytes p1 /\ PendOk p1 [] /\ pbin p1 = N /\ pevents (PI (IFrame es els :: its)) = (EHead es (length els), 3) :: pevents p1).
      { subst p1. destruct els as [|e els]; cbn [POk pbytes pbin pevents events flat_map item_events PendOk].
        - conjs; auto. unfold N, zlen. cbn [length]. lia.
        - conjs; auto; try lia. discriminate. }
      destruct P1 as (P1 & P2 & P3 & P4 & P5).
      destruct (IH p1 [] r t P1 P2 P3 ltac:(cbn in Hf; lia)) as (D & p' & here & G1 & G2 & G3 & G4 & G5 & G6).
      exists ((EHead es (length els), 3) :: D), p', here. conjs; auto.
      * rewrite P5, G1. reflexivity.
      * change (size ((EHead es (length els), 3) :: D)) with (3 + size D). cbn [app] in G3. rewrite !zlen_cons. lia.
      * intros s Hs s' HA. cbn [map fst] in HA. unfold Spec_Tcp2.apply_events in HA. cbn [ofold] in HA. apply obind_ok in HA. destruct HA as (s1 & A1 & A2). cbn [Spec_Tcp2.apply_event] in A1.
        assert (HR : s1 = s /\ PReady p1 s).
        { subst p1. destruct els as [|e els]; cbn [length Nat.eqb orb] in A1; [injection A1 as <-; split; cbn; auto|]. destruct (readyb X es s) eqn:ER; [|discriminate]. injection A1 as <-. split; auto. }
        destruct HR as [-> HR]. destruct (G6 s HR s' A2) as [G7 G8]. split; auto.
        cbn [Model_Tcp2.rb_loop app hd]. change (pbin (PI (IFrame es els :: its))) with 0. change (0 >? 0) with false. change (66 =? 66) with true. cbn iota.
        rewrite P4 in G7. replace (N mod 256 + N / 256 * 256) with N by (pose proof (Z.div_mod N 256 ltac:(lia)); lia). exact G7.
  - (* in a frame *)
    assert (pend = []) by (destruct pend; auto; contradiction). subst pend. cbn [app] in *. set (here := c :: r) in *.
    destruct HP as (HP1 & HP2 & HP3 & HP4).
    assert (Hlen : 0 < zlen els) by (destruct els; [congruence|rewrite zlen_cons; pose proof (zlen_nonneg els); lia]).
    assert (Hcl : zlen (concat els) = es * zlen els) by (apply zlen_concat; auto).
    assert (Hbin : (pbin (PF es els its) >? 0) = true) by (cbn; nia).
    assert (Hh0 : 0 < zlen here) by (unfold here; rewrite zlen_cons; pose proof (zlen_nonneg r); lia).
    destruct (zlen here <? es * zlen els) eqn:El.
    + (* part of the frame *)
      cbn [pbytes] in HB. destruct (app_prefix here t (concat els) (stream its) HB) as (e1 & Hc & Ht); [unfold zlen in *; lia|].
      set (k := Z.to_nat (zlen here / es)).
      assert (Hkb : 0 <= zlen here / es < zlen els).
      { split; [apply Z.div_pos; lia|]. apply Z.div_lt_upper_bound; lia. }
      assert (Hkz : Z.of_nat k = zlen here / es) by (unfold k; lia).
      assert (Hsk : skipn k els <> []).
      { intros C. apply (f_equal (@length _)) in C. rewrite skipn_length in C. cbn in C. rewrite <- Hkz in Hkb. unfold zlen in Hkb. lia. }
      assert (Hsz : size (firstn k (elem_events els)) = Z.of_nat k * es).
      { assert (S1 := elem_size es els HP3). rewrite (elem_events_split k), size_app in S1.
        assert (S2 : size (elem_events (skipn k els)) = es * zlen (skipn k els)).
        { apply elem_size. rewrite <- (firstn_skipn k els) in HP3. apply Forall_app in HP3. tauto. }
        rewrite zlen_skipn in S2 by (rewrite <- Hkz in Hkb; unfold zlen in *; lia). lia. }
      destruct (Z.eq_dec (zlen here / es) 0) as [Hk0|Hk0].
      * exists [], (PF es els its), here. conjs; auto.
        -- cbn. conjs; auto; lia.
        -- cbn. destruct els as [|e0 els]; [congruence|]. cbn. inversion HP3; subst. split; [lia|]. apply Z.div_small_iff in Hk0; lia.
        -- intros s Hs s' HA. cbn in HA. injection HA as <-. split; auto. unfold here. cbn [Model_Tcp2.rb_loop app]. rewrite Hbin. fold here. cbn [pbin]. rewrite El.
           assert (Hk00 : k = 0%nat) by (unfold k; rewrite Hk0; reflexivity).
           destruct (got_bin_run es els here e1 s s k ltac:(lia) HP1 HP3 (eq_sym Hc) eq_refl Hs) as [B1 B2]; [rewrite Hk00; reflexivity|].
           rewrite B1, Hk00. cbn [obind snd fst]. change (Z.of_nat 0 * es) with 0. change (0 =? 0) with true. reflexivity.
      * set (here2 := skipn (Z.to_nat (Z.of_nat k * es)) here).
        assert (Hdm := Z.div_mod (zlen here) es ltac:(lia)). assert (Hmd := Z.mod_pos_bound (zlen here) es ltac:(lia)).
        assert (Hl2 : zlen here2 = zlen here - Z.of_nat k * es) by (unfold here2; rewrite zlen_skipn; unfold zlen in *; nia).
        assert (HB2 : here2 ++ t = pbytes (PF es (skipn k els) its)).
        { cbn. rewrite Ht, app_assoc. f_equal.
          assert (Hck : concat els = concat (firstn k els) ++ concat (skipn k els)) by (rewrite <- concat_app, firstn_skipn; reflexivity).
          assert (Hlk : length (concat (firstn k els)) = Z.to_nat (Z.of_nat k * es)).
          { assert (Z1 : zlen (concat (firstn k els)) = es * zlen (firstn k els)). { apply zlen_concat. rewrite <- (firstn_skipn k els) in HP3. apply Forall_app in HP3. tauto. }
            rewrite zlen_firstn in Z1 by (unfold zlen in *; lia). unfold zlen in Z1. lia. }
          assert (Z2 : skipn (Z.to_nat (Z.of_nat k * es)) (concat els) = concat (skipn k els)).
          { rewrite Hck, <- Hlk, skipn_app, skipn_all, Nat.sub_diag. reflexivity. }
          rewrite Hc, skipn_app in Z2. unfold here2. rewrite <- Z2. f_equal. replace (Z.to_nat (Z.of_nat k * es) - length here)%nat with 0%nat by (unfold zlen in *; nia). reflexivity. }
        destruct (IH (PF es (skipn k els) its) [] here2 t) as (D & p' & here' & G1 & G2 & G3 & G4 & G5 & G6); auto.
        -- cbn. conjs; auto; try lia. rewrite <- (firstn_skipn k els) in HP3. apply Forall_app in HP3. tauto.
        -- unfold zlen, here in *. cbn [length] in *. nia.
        -- exists (firstn k (elem_events els) ++ D), p', here'. conjs; auto.
           ++ cbn [pevents] in *. rewrite (elem_events_split k els) at 1. rewrite <- !app_assoc. f_equal. exact G1.
           ++ rewrite size_app, Hsz. cbn [app] in G3. lia.
           ++ intros s Hs s' HA. rewrite map_app in HA. unfold Spec_Tcp2.apply_events in HA. rewrite ofold_app in HA. apply obind_ok in HA. destruct HA as (s1 & A1 & A2).
              destruct (got_bin_run es els here e1 s s1 k ltac:(lia) HP1 HP3 (eq_sym Hc) eq_refl Hs A1) as [B1 B2].
              destruct (G6 s1 (B2 Hsk) s' A2) as [G7 G8]. split; auto.
              unfold here. cbn [Model_Tcp2.rb_loop app]. rewrite Hbin. fold here. cbn [pbin]. rewrite El, B1. cbn [obind snd fst].
              replace (Z.of_nat k * es =? 0) with false by nia. fold here2. cbn [pbin] in G7. rewrite zlen_skipn in G7 by (unfold zlen in *; lia).
              replace (es * zlen els - Z.of_nat k * es) with (es * (zlen els - Z.of_nat k)) by lia. exact G7.
    + (* the rest of the frame *)
      assert (Hpre : exists r2, here = concat els ++ r2 /\ r2 ++ t = stream its).
      { cbn [pbytes] in HB. symmetry in HB. destruct (app_prefix (concat els) (stream its) here t HB) as (e1 & E1 & E2); [unfold zlen in *; lia|]. exists e1. auto. }
      destruct Hpre as (r2 & Hh & Hr2).
      assert (Hfn : firstn (Z.to_nat (es * zlen els)) here = concat els).
      { rewrite Hh. replace (Z.to_nat (es * zlen els)) with (length (concat els)) by (unfold zlen in *; lia). rewrite firstn_app, firstn_all, Nat.sub_diag, firstn_O, app_nil_r. reflexivity. }
      assert (Hsn : skipn (Z.to_nat (es * zlen els)) here = r2).
      { rewrite Hh. replace (Z.to_nat (es * zlen els)) with (length (concat els)) by (unfold zlen in *; lia). rewrite skipn_app, skipn_all, Nat.sub_diag. reflexivity. }
      destruct (IH (PI its) [] r2 t HP4 Hr2 I) as (D & p' & here' & G1 & G2 & G3 & G4 & G5 & G6).
      { apply (f_equal (@length _)) in Hh. rewrite app_length in Hh. unfold here in Hh. cbn [length] in Hh. unfold zlen in *. nia. }
      exists (elem_events els ++ D), p', here'. conjs; auto.
      * cbn [pevents] in *. rewrite G1, <- app_assoc. reflexivity.
      * rewrite size_app, (elem_size es) by auto. rewrite Hh, zlen_app, Hcl. cbn [app] in G3. lia.
      * intros s Hs s' HA. rewrite map_app in HA. unfold Spec_Tcp2.apply_events in HA. rewrite ofold_app in HA. apply obind_ok in HA. destruct HA as (s1 & A1 & A2).
        assert (Hk : length els = Z.to_nat (zlen (concat els) / es)). { rewrite Hcl, Z.mul_comm, Z.div_mul by lia. unfold zlen. lia. }
        assert (Hall : firstn (length els) (elem_events els) = elem_events els).
        { rewrite firstn_all2; auto. clear. induction els; cbn; lia. }
        destruct (got_bin_run es els (concat els) [] s s1 (length els) ltac:(lia) HP1 HP3 (app_nil_r _) Hk Hs) as [B1 B2]; [rewrite Hall; exact A1|].
        destruct (G6 s1 I s' A2) as [G7 G8]. split; auto.
        unfold here. cbn [Model_Tcp2.rb_loop app]. rewrite Hbin. fold here. cbn [pbin]. rewrite El, Hfn, B1. cbn [obind snd fst].
        replace (Z.of_nat (length els) * es) with (es * zlen els) by (unfold zlen; lia). replace (es * zlen els >? 0) with true by nia. cbn [cassert].
        rewrite Hsn. replace (es * zlen els - es * zlen els) with 0 by lia. exact G7.
Qed.

(* ---------- whole connections ---------- *)

Lemma partial_small p n : POk p -> Partial n (pevents p) -> 0 <= n < 8192.
Proof.
  intros HP H. destruct (pevents p) as [|e l] eqn:E; cbn in H; [lia|]. pose proof (first_size p e l HP E). lia.
Qed.

Lemma partial_end p here : POk p -> here = pbytes p -> Partial (zlen here) (pevents p) -> here = [] /\ pbin p = 0.
Proof.
  intros HP HB H. assert (S := size_pevents p HP). rewrite <- HB in S. assert (N := pevents_nonneg p).
  assert (E : pevents p = []).
  { destruct (pevents p) as [|e l]; auto. exfalso. cbn in H. rewrite size_cons in S. inversion N; subst. pose proof (size_nonneg l ltac:(auto)). lia. }
  rewrite E in S. change (size []) with 0 in S. split; [destruct here; auto; rewrite zlen_cons in S; pose proof (zlen_nonneg here); lia|].
  destruct p as [its|es els its]; auto. destruct HP as (A & _). destruct els; [congruence|]. discriminate.
Qed.

Notation receive := (receive rd X other).
Notation handle := (handle rd X other).

Lemma recv_run evs : forall steps p here wait rest P0, Forall (fun st => Calm X (snd st)) steps ->
  POk p -> evs = P0 ++ pevents p -> here ++ wait ++ rest = pbytes p -> Partial (zlen here) (pevents p) -> Forall (fun e => 0 <= snd e) P0 ->
  exists ks, ReadsOk X (size evs) (size evs - zlen rest) (size P0 + zlen here) steps ks /\
  forall s, PReady p s -> forall s', handle evs (size P0 + zlen here) s (combine ks (map snd steps)) = Ok s' ->
  exists f' w' r', receive s (mkFd here (pbin p)) wait rest steps = Ok (s', f', w', r') /\
    zsum ks + zlen w' + zlen r' = zlen wait + zlen rest /\ (w' = [] -> r' = [] -> f' = mkFd [] 0).
Proof.
  induction steps as [|[n g] steps IH]; intros p here wait rest P0 HC HP HE HB HQ HN.
  - exists []. split; [exact I|]. intros s Hs s' HH. cbn in HH. injection HH as <-. exists (mkFd here (pbin p)), wait, rest. cbn [Spec_Tcp2.receive]. conjs; auto.
    intros -> ->. rewrite !app_nil_r in HB. destruct (partial_end p here HP HB HQ) as [-> ->]. reflexivity.
  - assert (HC' : Calm X g /\ Forall (fun st => Calm X (snd st)) steps) by (inversion HC; auto). destruct HC' as [HC1 HC2].
    assert (Htot : size evs = size P0 + zlen here + zlen wait + zlen rest).
    { rewrite HE, size_app, size_pevents, <- HB, !zlen_app by auto. lia. }
    assert (Hfs : zlen rest = zlen (firstn n rest) + zlen (skipn n rest)) by (rewrite <- zlen_app, firstn_skipn; reflexivity).
    assert (Hfn : zlen (firstn n rest) = Z.min (zlen rest) (Z.of_nat n)) by (unfold zlen; rewrite firstn_length; lia).
    remember (wait ++ firstn n rest) as W eqn:EW.
    assert (HW : zlen W = zlen wait + zlen (firstn n rest)) by (rewrite EW, zlen_app; reflexivity).
    assert (HB' : here ++ W ++ skipn n rest = pbytes p) by (rewrite EW, <- app_assoc, firstn_skipn; exact HB).
    pose proof (zlen_nonneg wait). pose proof (zlen_nonneg rest). pose proof (zlen_nonneg (skipn n rest)). pose proof (zlen_nonneg (firstn n rest)).
    assert (Hcd : complete (size P0 + zlen here) evs = map fst P0).
    { rewrite HE. apply complete_split; auto. replace (size P0 + zlen here - size P0) with (zlen here) by lia. auto. }
    destruct W as [|w0 W].
    + change (zlen (@nil Z)) with 0 in HW. cbn [app] in HB'.
      destruct (IH p here [] (skipn n rest) P0 HC2 HP HE HB' HQ HN) as (ks & G1 & G2).
      exists (0 :: ks). split.
      * cbn [ReadsOk]. conjs; try lia. replace (Z.min (size evs) (size evs - zlen rest + Z.of_nat n)) with (size evs - zlen (skipn n rest)) by lia.
        replace (size P0 + zlen here + 0) with (size P0 + zlen here) by lia. exact G1.
      * intros s Hs s' HH. cbn [combine map snd Spec_Tcp2.handle] in HH. replace (size P0 + zlen here + 0) with (size P0 + zlen here) in HH by lia.
        rewrite skipn_all in HH. cbn [Spec_Tcp2.apply_events ofold obind] in HH.
        assert (Hgs : PReady p (g s)) by (destruct p; cbn in *; auto).
        destruct (G2 (g s) Hgs s' HH) as (f' & w' & r' & R1 & R2 & R3). exists f', w', r'. conjs; auto.
        -- cbn [Spec_Tcp2.receive]. rewrite <- EW. exact R1.
        -- cbn [zsum fold_right] in *. fold (zsum ks). change (zlen (@nil Z)) with 0 in R2. lia.
    + remember (w0 :: W) as W1 eqn:EW1.
      assert (HW0 : 0 < zlen W1) by (rewrite EW1, zlen_cons; pose proof (zlen_nonneg W); lia).
      assert (Hsm := partial_small p _ HP HQ).
      set (nn := Z.to_nat (rbuf_len - zlen here)).
      assert (Hnn : Z.of_nat nn = 8192 - zlen here) by (unfold nn; change rbuf_len with 8192; lia).
      assert (HWs : W1 = firstn nn W1 ++ skipn nn W1) by (rewrite firstn_skipn; reflexivity).
      assert (HWn : zlen (firstn nn W1) = Z.min (zlen W1) (Z.of_nat nn)) by (unfold zlen; rewrite firstn_length; lia).
      assert (HWz : zlen W1 = zlen (firstn nn W1) + zlen (skipn nn W1)) by (rewrite HWs at 1; apply zlen_app).
      assert (HB2 : ([] ++ (here ++ firstn nn W1)) ++ (skipn nn W1 ++ skipn n rest) = pbytes p).
      { cbn [app]. rewrite <- app_assoc, (app_assoc (firstn nn W1)), firstn_skipn. exact HB'. }
      assert (HPe : PendOk p []) by (destruct p; exact I).
      destruct (rb_run (length (here ++ firstn nn W1)) p [] (here ++ firstn nn W1) (skipn nn W1 ++ skipn n rest) HP HB2 HPe (le_n _))
        as (D & p' & here' & G1 & G2 & G3 & G4 & G5 & G6).
      cbn [app] in G3. rewrite zlen_app in G3.
      assert (ND : Forall (fun e => 0 <= snd e) D). { assert (NN := pevents_nonneg p). rewrite G1 in NN. apply Forall_app in NN. tauto. }
      assert (HE' : evs = (P0 ++ D) ++ pevents p') by (rewrite HE, G1, app_assoc; reflexivity).
      assert (HN' : Forall (fun e => 0 <= snd e) (P0 ++ D)) by (apply Forall_app; auto).
      destruct (IH p' here' (skipn nn W1) (skipn n rest) (P0 ++ D) HC2 G2 HE' G4 G5 HN') as (ks & K1 & K2).
      assert (Hd : size P0 + zlen here + zlen (firstn nn W1) = size (P0 ++ D) + zlen here') by (rewrite size_app; lia).
      exists (zlen (firstn nn W1) :: ks). split.
      * cbn [ReadsOk]. conjs; try lia. replace (Z.min (size evs) (size evs - zlen rest + Z.of_nat n)) with (size evs - zlen (skipn n rest)) by lia.
        rewrite Hd. exact K1.
      * intros s Hs s' HH. cbn [combine map snd Spec_Tcp2.handle] in HH. apply obind_ok in HH. destruct HH as (s1 & A1 & A2). rewrite Hd in A1, A2.
        assert (Hcd' : complete (size (P0 ++ D) + zlen here') evs = map fst (P0 ++ D)).
        { rewrite HE'. apply complete_split; auto. replace (size (P0 ++ D) + zlen here' - size (P0 ++ D)) with (zlen here') by lia. auto. }
        rewrite Hcd, Hcd', map_app, map_length, skipn_app, skipn_all2, map_length, Nat.sub_diag in A1 by (rewrite map_length; auto). cbn [app skipn] in A1.
        destruct (G6 s Hs s1 A1) as [B1 B2].
        assert (Hgs : PReady p' (g s1)) by (destruct p'; cbn in *; auto).
        destruct (K2 (g s1) Hgs s' A2) as (f' & w' & r' & R1 & R2 & R3). exists f', w', r'. conjs; auto.
        -- cbn [Spec_Tcp2.receive]. rewrite <- EW, EW1. cbn iota. rewrite <- EW1. unfold got_bytes. cbn [fd_rbuf fd_bin]. fold nn.
           replace (zlen here =? rbuf_len) with false by (change rbuf_len with 8192; lia).
           unfold process_rbuf. cbn [fd_rbuf fd_bin]. rewrite B1. cbn [obind fst snd]. exact R1.
        -- cbn [zsum fold_right] in *. fold (zsum ks). lia.
Qed.
End Run.
