(* Transfer of the values of a range with the TCP2 backend: receiving *)
From Coq Require Import ZArith List Bool Lia ZifyBool ZifyNat.
From Verif Require Import Base ListFacts Model_Space Model_RangeList Model_Mem Model_Layout Model_Transition Model_KVS Model_SpaceStore Model_Tcp2
  Spec_Space Spec_Type Spec_Layout Spec_SpaceStore Spec_Tcp2 Proof_Space Proof_Type Proof_RangeList5 Proof_Layout Proof_Layout2 Proof_Layout3 Proof_Layout4 Proof_Layout5 Proof_Layout6
  Proof_SpaceStore Proof_Tcp2 Proof_Tcp3.
Import ListNotations.
Open Scope Z_scope.

(* ---------- parsing data commands ---------- *)

Lemma starts_with_app s l : starts_with s (s ++ l) = Some l.
Proof. induction s; cbn; auto. rewrite Z.eqb_refl. auto. Qed.

Lemma hexdigit_ok v : 0 <= v < 16 -> let c := hexdigit v in (c =? 32) = false /\ ((48 <=? c) && (c <=? 102)) = true /\ ((c <=? 57) || (97 <=? c)) = true /\ (if 57 <? c then c - 97 + 10 else c - 48) = v.
Proof.
  intros H. unfold hexdigit. destruct (v <? 10) eqn:E; cbn zeta.
  - replace (57 <? 48 + v) with false by lia. lia.
  - replace (57 <? 97 + v - 10) with true by lia. lia.
Qed.

Lemma hex_byte c r len acc : 0 <= c < 256 -> hex_loop (hex2 c ++ r) len 0 acc = hex_loop r len c acc.
Proof.
  intros F1. assert (A : 0 <= c / 16 < 16) by (split; [apply Z.div_pos; lia|apply Z.div_lt_upper_bound; lia]). assert (B : 0 <= c mod 16 < 16) by (apply Z.mod_pos_bound; lia).
  destruct (hexdigit_ok _ A) as (A1 & A2 & A3 & A4). destruct (hexdigit_ok _ B) as (B1 & B2 & B3 & B4).
  cbn [hex2 app]. cbn [hex_loop]. rewrite A1, A2, A3, A4. cbn [cassert]. rewrite B1, B2, B3, B4. cbn [cassert].
  f_equal. pose proof (Z.div_mod c 16 ltac:(lia)). lia.
Qed.

Lemma hex_run : forall e c acc len, Forall (fun v => 0 <= v < 256) (c :: e) -> zlen acc + 1 + zlen e = len ->
  hex_loop (hex2 c ++ flat_map (fun v => 32 :: hex2 v) e) len 0 acc = Ok (acc ++ c :: e).
Proof.
  induction e as [|c2 e IH]; intros c acc len HF Hl; inversion HF as [|? ? F1 F2]; subst; rewrite hex_byte by auto.
  - cbn [flat_map hex_loop]. rewrite zlen_nil. replace (zlen acc <? zlen acc + 1 + 0) with true by lia. cbn [cassert]. rewrite Z.mod_small by lia. reflexivity.
  - specialize (IH c2 (acc ++ [c]) (zlen acc + 1 + zlen (c2 :: e)) F2). rewrite zlen_app in IH. change (zlen [c]) with 1 in IH. rewrite zlen_cons in IH |- *.
    specialize (IH ltac:(lia)). change (flat_map (fun v => 32 :: hex2 v) (c2 :: e)) with (32 :: (hex2 c2 ++ flat_map (fun v => 32 :: hex2 v) e)).
    remember (hex2 c2 ++ flat_map (fun v => 32 :: hex2 v) e) as R eqn:ER. cbn [hex_loop].
    change (32 =? 32) with true. cbn iota. pose proof (zlen_nonneg e). replace (zlen acc <? zlen acc + 1 + (1 + zlen e)) with true by lia. cbn [cassert].
    rewrite Z.mod_small by lia.
    rewrite zlen_app. change (zlen [c]) with 1. replace (zlen acc + 1 =? zlen acc + 1 + (1 + zlen e)) with false by lia.
    rewrite IH, <- app_assoc. reflexivity.
Qed.

Lemma print_small n : 0 <= n < 2 ^ 31 -> zlen (print_dec n) <= 10.
Proof.
  intros H. unfold zlen, print_dec. replace (n <? 0) with false by lia. assert (length (print_nat (S (Z.to_nat (Z.log2 n))) n) <= 10)%nat; [|lia].
  apply (print_nat_len 9). change (10 ^ Z.of_nat 10) with 10000000000. change (2 ^ 31) with 2147483648 in H. lia.
Qed.

Lemma istr_short dd i s : istr dd i = Ok s -> zlen s < 50.
Proof. unfold istr. destruct (_ <? 50) eqn:E; [|discriminate]. intros H. assert (Es := f_equal (fun o => match o with Ok v => v | _ => [] end) H). cbn beta iota in Es. rewrite Es in E. lia. Qed.

(* what got_data does with the command of an element *)
Lemma parse_data rd n dd i e c : data_cmd n dd i e = Ok c -> 0 <= n < 2 ^ 31 -> e <> [] -> Forall (fun v => 0 <= v < 256) e ->
  hd 0 c = 100 /\ c <> [] /\
  forall p m, waiting p = true -> pr_es p = zlen e -> pr_map p <> None -> pr_off p = n -> sp_dims (pr_space p) = dd -> istr dd (pr_idx p) = istr dd i ->
  got_data rd p m c = (do q <- put_elem rd p m e; cassert (Bool.eqb (snd q) (pr_off (fst (fst q)) <? pr_count (fst (fst q)))) (Ok (fst q))).
Proof.
  intros H Hn He Hb. unfold data_cmd in H. apply obind_ok in H. destruct H as (s & S1 & S2).
  destruct (zlen _ <? 100) eqn:E in S2; [|discriminate]. match type of S2 with Ok ?s = _ => assert (Ec : c = s) by congruence end. clear S2.
  assert (Hl : zlen e < 100).
  { rewrite !zlen_app in E. assert (zlen e <= zlen (flat_map (fun v => 32 :: hex2 v) e)).
    { clear. unfold zlen. induction e; cbn [flat_map app hex2 length]; lia. }
    pose proof (zlen_nonneg (print_dec (zlen e))). pose proof (zlen_nonneg (print_dec n)). pose proof (zlen_nonneg s).
    change (zlen [100; 97; 116; 97; 32]) with 5 in E. change (zlen [32; 40]) with 2 in E. change (zlen [58]) with 1 in E. change (zlen [41]) with 1 in E. lia. }
  split; [rewrite Ec; reflexivity|]. split; [rewrite Ec; discriminate|].
  intros p m W1 W2 W3 W4 W5 W6. unfold got_data.
  set (hx := flat_map (fun v => 32 :: hex2 v) e) in *.
  set (ps := [40] ++ print_dec n ++ [58] ++ s ++ [41]).
  assert (Ec' : c = [100; 97; 116; 97; 32] ++ print_dec (zlen e) ++ 32 :: (ps ++ hx)).
  { rewrite Ec. unfold ps. rewrite <- !app_assoc. reflexivity. }
  assert (SW : scan_word 20 c = Some ([100; 97; 116; 97], 32 :: print_dec (zlen e) ++ 32 :: (ps ++ hx))).
  { rewrite Ec'. unfold scan_word. cbn [app skip_space]. change (is_space 100) with false. cbn iota.
    repeat (cbn [take_word]; match goal with |- context [is_space ?z] => let v := eval vm_compute in (is_space z) in change (is_space z) with v; cbn iota end). reflexivity. }
  rewrite SW. cbn iota.
  assert (SD : scan_dec (32 :: print_dec (zlen e) ++ 32 :: (ps ++ hx)) = Some (zlen e, 32 :: (ps ++ hx))).
  { change (scan_dec (32 :: print_dec (zlen e) ++ 32 :: (ps ++ hx))) with (scan_dec (print_dec (zlen e) ++ 32 :: (ps ++ hx))).
    apply scan_print; [|reflexivity]. unfold Int64. pose proof (zlen_nonneg e). change (2 ^ 63) with 9223372036854775808. lia. }
  rewrite SD. cbn iota.
  assert (SS : skip_space (32 :: ps ++ hx) = ps ++ hx) by reflexivity. rewrite SS. rewrite W1. cbn [negb]. rewrite W2, Z.eqb_refl. cbn [cassert].
  destruct (pr_map p) as [mp|] eqn:Em; [|congruence].
  assert (PS : pos_str (pr_off p) (sp_dims (pr_space p)) (pr_idx p) = Ok ps).
  { unfold pos_str. rewrite W4, W5, W6, S1. cbn [obind]. fold ps.
    assert (zlen ps < 70). { unfold ps. rewrite !zlen_app. pose proof (print_small n Hn). pose proof (istr_short _ _ _ S1). change (zlen [40]) with 1. change (zlen [58]) with 1. change (zlen [41]) with 1. lia. }
    replace (zlen ps <? 70) with true by lia. reflexivity. }
  rewrite PS. cbn [obind]. change (hd 0 (ps ++ hx)) with 40. change (40 =? 40) with true. cbn iota. rewrite starts_with_app. cbn [obind].
  replace (zlen e <? 100) with true by lia. cbn [cassert].
  destruct e as [|c0 e]; [congruence|].
  assert (A : 0 <= c0 / 16 < 16) by (inversion Hb; subst; split; [apply Z.div_pos; lia|apply Z.div_lt_upper_bound; lia]). destruct (hexdigit_ok _ A) as (A1 & _).
  assert (SB : skip_blank hx = hex2 c0 ++ flat_map (fun v => 32 :: hex2 v) e).
  { unfold hx. cbn [flat_map hex2 app skip_blank]. change (32 =? 32) with true. cbn iota. rewrite A1. reflexivity. }
  rewrite SB, (hex_run e c0 [] (zlen (c0 :: e)) Hb) by (rewrite zlen_cons; change (zlen (@nil Z)) with 0; lia). cbn [obind app]. rewrite Z.eqb_refl. cbn [cassert]. reflexivity.
Qed.

(* ---------- the receiver ---------- *)

Section Recv.
Variables (rd : redop -> list Z -> list Z -> outcome (list Z)) (X : Type) (other : X -> list Z -> outcome X).
Variables (sp : space) (b : box) (mp : lmap) (B : box) (N : Z) (ro : redop) (m0 : mem) (ev nv : index -> list Z) (Kept : Z -> Prop).
Local Notation d := (sp_dims sp).
Local Notation es := (lm_es mp).
Local Notation L := (lexlist d b).
Local Notation adr := (adr d mp B).
Hypothesis Hd : valid_dims d.
Hypothesis HG : GoodMap sp mp B N.
Hypothesis Hne : NonEmpty d b.
Hypothesis Hsub : SubBox d b B.
Hypothesis Hn : zlen L < 2 ^ 31.
Hypothesis Hev : forall i, zlen (ev i) = es.
Hypothesis Hnv : forall i, In i L -> zlen (nv i) = es /\ Combined rd ro (mread m0 (adr i) (Z.to_nat es)) (ev i) (nv i).

Lemma L_inB i : In i L -> InBox d i b /\ InBox d i B /\ can d i = i.
Proof. intros Hi. apply (proj1 (lexlist_enum d b Hd Hne)) in Hi. destruct Hi as [A C]. split; auto. split; [apply Hsub; auto|]. apply canon_can. auto. Qed.
Lemma rep : 0 < es. Proof. destruct HG as (_ & _ & _ & H & _). exact H. Qed.

Definition RInv (j : nat) (s : pstate X) : Prop :=
  exists idx, snd (fst s) = mkRp (zlen L) (Z.of_nat j) es (Some mp) sp b idx ro /\
  ((j < length L)%nat -> InBox d idx b /\ skipn j L = lexfrom d b idx) /\
  (forall k i, nth_error L k = Some i -> mread (snd s) (adr i) (Z.to_nat es) = if (k <? j)%nat then nv i else mread m0 (adr i) (Z.to_nat es)) /\
  (forall a, ~ Inside d mp b a -> Kept a -> snd s a = m0 a).

Lemma put_ok j x p m i : RInv j (x, p, m) -> nth_error L j = Some i ->
  exists p' m', put_elem rd p m (ev i) = Ok (p', m', (S j <? length L)%nat) /\ RInv (S j) (x, p', m').
Proof.
  intros (idx & R1 & R2 & R3 & R4) Hj. cbn [fst snd] in *.
  assert (Hlt : (j < length L)%nat) by (apply nth_error_Some; congruence). destruct (R2 Hlt) as [I1 I2].
  rewrite (lexfrom_step d b idx Hd I1) in I2. destruct (nth_skip _ _ _ _ I2) as [N1 N2]. assert (Ei : can d idx = i) by congruence.
  assert (HiB : InBox d idx B) by (apply Hsub; auto).
  destruct HG as (G1 & G2 & G3 & G4 & G5 & G6).
  unfold put_elem. rewrite R1. cbn [pr_map pr_idx pr_es pr_ro pr_space pr_range pr_off pr_count].
  rewrite (offset_ok sp _ _ B idx Hd G1 G2 HiB). cbn [obind].
  assert (Ha : lm_start mp + boff d B idx * es = adr i) by (rewrite <- Ei; unfold Proof_Layout4.adr; rewrite boff_can; reflexivity). rewrite Ha.
  assert (Hin : In i L) by (eapply nth_error_In; eauto). destruct (Hnv i Hin) as [V1 V2].
  rewrite (R3 j i Hj), Nat.ltb_irrefl.
  match goal with |- context [obind ?t _] => assert (Hv : t = Ok (nv i)) by (unfold Combined in V2; destruct ro; congruence) end.
  rewrite Hv. cbn [obind].
  assert (Hlen : length (nv i) = Z.to_nat es) by (unfold zlen in V1; lia).
  assert (Hmore : fst (next_lex d b idx) = (S j <? length L)%nat /\ (fst (next_lex d b idx) = true -> InBox d (snd (next_lex d b idx)) b /\ skipn (S j) L = lexfrom d b (snd (next_lex d b idx)))).
  { assert (Hsl : length (skipn (S j) L) = (length L - S j)%nat) by (rewrite skipn_length; reflexivity).
    destruct (next_lex d b idx) as [[] jx] eqn:En; cbn [fst snd].
    - assert (In2 : InBox d jx b) by (eapply next_lex_in; eauto). rewrite N2 in Hsl. rewrite (lexfrom_step d b jx Hd In2) in Hsl. cbn [length] in Hsl. split; [lia|]. auto.
    - rewrite N2 in Hsl. cbn in Hsl. split; [lia|discriminate]. }
  destruct (next_lex d b idx) as [more jx]. cbn [fst snd] in Hmore. destruct Hmore as [M1 M2]. rewrite M1. eexists _, _. split; [reflexivity|].
  exists jx. cbn [fst snd]. conjs.
  - f_equal. lia.
  - intros Hl. apply M2. rewrite M1. lia.
  - intros k i' Hk. destruct (Nat.eq_dec k j) as [->|Hkj].
    + assert (i' = i) by congruence. subst i'. replace (j <? S j)%nat with true by lia. apply mread_mwrite_same. lia.
    + assert (Hi' : In i' L) by (eapply nth_error_In; eauto).
      rewrite mread_mwrite_apart.
      * rewrite (R3 k i' Hk). replace (k <? S j)%nat with (k <? j)%nat by lia. reflexivity.
      * destruct (L_inB i Hin) as (X1 & X2 & X3). destruct (L_inB i' Hi') as (Y1 & Y2 & Y3).
        assert (Hns : ~ SameIndex d i i').
        { intros C. apply can_same in C. rewrite X3, Y3 in C. subst i'.
          assert (ND := Enumerates_NoDup d b L (lexlist_enum d b Hd Hne)). rewrite NoDup_nth_error in ND. apply Hkj. apply ND; [apply nth_error_Some; congruence|congruence]. }
        pose proof rep. assert (AW : Away (adr i) es (adr i') es).
        { unfold Away, Proof_Layout4.adr. assert (boff d B i <> boff d B i') by (intros C; apply Hns; eapply boff_inj; eauto). nia. }
        unfold Away in AW. rewrite Hlen. lia.
  - intros a Ha1 Ha2. rewrite mwrite_out; [apply R4; auto|]. rewrite Hlen. destruct (L_inB i Hin) as (X1 & X2 & X3). pose proof rep.
    assert (~ (adr i <= a < adr i + es)); [|lia]. intros C. apply Ha1. exists i, (adr i). conjs; auto; try lia.
    exists (boff d B i). split; [|reflexivity]. apply (offset_ok sp _ _ B i Hd G1 G2 X2).
Qed.

Lemma RInv_ready j s : RInv j s -> readyb X es s = (j <? length L)%nat.
Proof.
  intros (idx & R1 & _). destruct s as [[x p] m]. cbn [fst snd] in R1. unfold readyb. cbn [fst snd]. rewrite R1. cbn [pr_count pr_off pr_es pr_map].
  rewrite Z.eqb_refl. unfold zlen. assert (0 < length L)%nat; [|lia].
  assert (lexlist d b <> []) by (apply lexfrom_nonempty; auto; destruct Hne as [y Hy]; unfold InBox in *; lia). destruct L; [congruence|cbn; lia].
Qed.

Definition EInv (l : list event) (s : pstate X) : Prop := exists j, EvOk d es L ev j l /\ RInv j s.

Lemma event_ok : (forall i c j, In i L -> data_cmd j d i (ev i) = Ok c -> Forall (fun v => 0 <= v < 256) (ev i)) ->
  forall e l s, EInv (e :: l) s -> exists s', apply_event rd X other s e = Ok s' /\ EInv l s'.
Proof.
  intros Hb e l s (j & E & R). assert (Hj := EvOk_pos _ _ _ _ _ _ _ E). assert (Hr := RInv_ready j s R). replace (j <? length L)%nat with true in Hr by lia.
  inversion E as [|j' n l' J1 J2|j' i more l' J1 J2 J3|j' i c l' J1 J2 J3]; subst.
  - exists s. split; [|exists j; auto]. cbn [apply_event]. rewrite Hr, orb_true_r. reflexivity.
  - destruct s as [[x p] m]. destruct (put_ok j x p m i R J1) as (p' & m' & P1 & P2).
    exists (x, p', m'). split; [|exists (S j); auto]. cbn [apply_event]. rewrite Hev, Hr, P1. cbn [obind fst snd].
    assert (Hr2 := RInv_ready (S j) _ P2). rewrite Hr2. destruct P2 as (idx & Q1 & _). cbn [fst snd] in Q1. rewrite Q1. cbn [pr_off pr_count].
    replace (Z.of_nat (S j) <? zlen L) with (S j <? length L)%nat by (unfold zlen; lia). rewrite eqb_reflx. cbn [andb].
    destruct more; cbn [negb orb]; [|reflexivity]. replace (S j <? length L)%nat with true by (specialize (J2 eq_refl); lia). reflexivity.
  - destruct s as [[x p] m]. destruct (put_ok j x p m i R J1) as (p' & m' & P1 & P2). assert (Hin : In i L) by (eapply nth_error_In; eauto).
    exists (x, p', m'). split; [|exists (S j); auto]. cbn [apply_event]. unfold got_cmd.
    destruct (parse_data rd (Z.of_nat j) d i (ev i) c J2) as (H1 & H2 & H3).
    + unfold zlen in Hn. lia.
    + intros C. assert (Z0 := Hev i). rewrite C in Z0. change (zlen (@nil Z)) with 0 in Z0. pose proof rep. lia.
    + eapply Hb; eauto.
    + destruct c as [|c0 c]; [congruence|]. cbn [hd] in H1. subst c0. change (100 =? 100) with true. cbn iota.
      assert (RW := Hr). apply (ready_waiting X other) in RW. destruct RW as (W1 & W2 & W3 & mp' & W4).
      assert (R0 := R). destruct R0 as (idx & Q1 & Q2 & _). cbn [fst snd] in Q1.
      rewrite H3; auto.
      * rewrite P1. cbn [obind fst snd]. destruct P2 as (idx' & Q1' & _). cbn [fst snd] in Q1'. rewrite Q1' at 1 2. cbn [pr_off pr_count].
        replace (Z.of_nat (S j) <? zlen L) with (S j <? length L)%nat by (unfold zlen; lia). rewrite eqb_reflx. cbn [cassert obind fst snd]. reflexivity.
      * rewrite W2, Hev. reflexivity.
      * rewrite W4. discriminate.
      * rewrite Q1. reflexivity.
      * rewrite Q1. reflexivity.
      * rewrite Q1. cbn [pr_idx]. destruct (Q2 Hj) as [I1 I2]. rewrite (lexfrom_step d b idx Hd I1) in I2. destruct (nth_skip _ _ _ _ I2) as [N1 _].
        assert (Ei : can d idx = i) by congruence. rewrite <- Ei. unfold istr. destruct Hd as [->|[->| ->]]; reflexivity.
Qed.
End Recv.
