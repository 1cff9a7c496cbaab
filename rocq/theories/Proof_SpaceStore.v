(* Proofs for the encoding of spaces *)
From Coq Require Import ZArith List Bool Lia ZifyBool ZifyNat.
From Verif Require Import Base Model_Space Model_KVS Model_SpaceStore Spec_SpaceStore.
Import ListNotations.
Open Scope Z_scope.

Definition stops (r : list Z) : Prop := match r with [] => True | c :: _ => is_digit c = false end.

Lemma scan_app a : forall l acc r, Forall (fun c => is_digit c = true) l ->
  scan_nat acc (l ++ a :: r) = scan_nat (fst (scan_nat acc l)) (a :: r).
Proof.
  induction l as [|c l IH]; intros acc r H; auto. inversion H as [|? ? Hc Hl]; subst. cbn [app scan_nat]. rewrite Hc. apply IH. exact Hl.
Qed.
Lemma scan_app0 : forall l acc r, Forall (fun c => is_digit c = true) l -> stops r -> scan_nat acc (l ++ r) = (fst (scan_nat acc l), r).
Proof.
  induction l as [|c l IH]; intros acc r H S; cbn [app scan_nat].
  - destruct r as [|c r]; auto. simpl in S. cbn [scan_nat]. rewrite S. auto.
  - inversion H as [|? ? Hc Hl]; subst. rewrite Hc. apply IH; auto.
Qed.

Lemma print_nat_digits : forall n z, 0 <= z -> Forall (fun c => is_digit c = true) (print_nat n z).
Proof.
  induction n as [|n IH]; intros z Hz; cbn [print_nat]; [constructor|]. destruct (z <? 10) eqn:E.
  - constructor; [|constructor]. unfold is_digit. lia.
  - apply Forall_app. split. + apply IH. apply Z.div_pos; lia.
    + constructor; [|constructor]. assert (0 <= z mod 10 < 10) by (apply Z.mod_pos_bound; lia). unfold is_digit. lia.
Qed.

Lemma scan_last : forall l acc d, Forall (fun c => is_digit c = true) l -> 0 <= d < 10 ->
  fst (scan_nat acc (l ++ [48 + d])) = fst (scan_nat acc l) * 10 + d.
Proof.
  intros l acc d H Hd. rewrite scan_app by auto. cbn [scan_nat]. assert (is_digit (48 + d) = true) as -> by (unfold is_digit; lia). simpl. lia.
Qed.

Lemma print_scan : forall n z, 0 <= z < 2 ^ Z.of_nat n -> (0 < n)%nat -> fst (scan_nat 0 (print_nat n z)) = z.
Proof.
  induction n as [|n IH]; intros z Hz Hn; [lia|]. cbn [print_nat]. destruct (z <? 10) eqn:E.
  - cbn [scan_nat]. assert (is_digit (48 + z) = true) as -> by (unfold is_digit; lia). simpl. lia.
  - assert (M : 0 <= z mod 10 < 10) by (apply Z.mod_pos_bound; lia). assert (D := Z.div_mod z 10 ltac:(lia)).
    destruct n as [|n]. { change (2 ^ Z.of_nat 1) with 2 in Hz. lia. }
    rewrite scan_last; auto; [|apply print_nat_digits; apply Z.div_pos; lia].
    rewrite IH; [lia| |lia].
    assert (2 ^ Z.of_nat (S (S n)) = 2 * 2 ^ Z.of_nat (S n)) as P by (rewrite (Nat2Z.inj_succ (S n)); apply Z.pow_succ_r; lia). lia.
Qed.

Lemma fuel_ok z : 0 <= z -> z < 2 ^ Z.of_nat (S (Z.to_nat (Z.log2 z))).
Proof.
  intros Hz. rewrite Nat2Z.inj_succ. assert (L := Z.log2_nonneg z). rewrite Z2Nat.id by lia. destruct (Z.eq_dec z 0) as [->|N]; [reflexivity|].
  apply Z.log2_spec. lia.
Qed.

Lemma print_nat_head n z : (0 < n)%nat -> 0 <= z -> exists c l, print_nat n z = c :: l /\ is_digit c = true.
Proof.
  intros Hn Hz. assert (F := print_nat_digits n z Hz). destruct (print_nat n z) as [|c l] eqn:E.
  - destruct n as [|n]; [lia|]. cbn [print_nat] in E. destruct (z <? 10); [discriminate|]. destruct (print_nat n (z / 10)); discriminate.
  - inversion F; subst. eauto.
Qed.

Lemma digit_not c : is_digit c = true -> is_space c = false /\ (c =? 45) = false /\ (c =? 43) = false.
Proof. unfold is_digit, is_space. lia. Qed.

Lemma scan_print : forall z r, Int64 z -> stops r -> scan_dec (print_dec z ++ r) = Some (z, r).
Proof.
  intros z r Hz Hr. unfold Int64 in Hz. unfold print_dec, scan_dec. destruct (z <? 0) eqn:E.
  - cbn [app skip_space]. change (is_space 45) with false. change (45 =? 45) with true. cbn iota.
    set (n := S (Z.to_nat (Z.log2 (- z)))). assert (Fu : - z < 2 ^ Z.of_nat n) by (apply fuel_ok; lia).
    destruct (print_nat_head n (- z)) as [c [l [E1 E2]]]; [unfold n; lia|lia|].
    assert (X : scan_nat 0 (print_nat n (- z) ++ r) = (- z, r)).
    { rewrite scan_app0; auto. - rewrite print_scan; auto; [lia|unfold n; lia]. - apply print_nat_digits; lia. }
    rewrite E1 in X |- *. cbn [app] in X |- *. change (45 =? 45) with true; cbn iota; rewrite E2, X. f_equal. f_equal. unfold clamp. lia.
  - set (n := S (Z.to_nat (Z.log2 z))). assert (Fu : z < 2 ^ Z.of_nat n) by (apply fuel_ok; lia).
    destruct (print_nat_head n z) as [c [l [E1 E2]]]; [unfold n; lia|lia|].
    assert (X : scan_nat 0 (print_nat n z ++ r) = (z, r)).
    { rewrite scan_app0; auto. - rewrite print_scan; auto; [lia|unfold n; lia]. - apply print_nat_digits; lia. }
    rewrite E1 in X |- *. cbn [app skip_space] in X |- *. destruct (digit_not c E2) as (S1 & S2 & S3). rewrite S1, S2, S3, E2, X.
    f_equal. f_equal. unfold clamp. lia.
Qed.

(* a format in which a number is followed by a character which is no digit *)
Fixpoint good_fmt (f : list fitem) : bool :=
  match f with
  | FInt :: f' => match f' with FChar c :: _ => negb (is_digit c) | _ => false end && good_fmt f'
  | FChar _ :: f' => good_fmt f'
  | [] => true
  end.
Fixpoint nints (f : list fitem) : nat := match f with FInt :: f' => S (nints f') | _ :: f' => nints f' | [] => O end.

Lemma scan_print_fmt : forall f args, good_fmt f = true -> length args = nints f -> Forall Int64 args ->
  scan_fmt f (print_fmt f args) = args.
Proof.
  induction f as [|[c|] f IH]; intros args G L H; cbn [good_fmt nints] in *.
  - destruct args; [auto|discriminate].
  - cbn [print_fmt scan_fmt]. rewrite Z.eqb_refl. auto.
  - destruct args as [|a args]; [discriminate|]. inversion H as [|? ? Ha Hs]; subst. apply andb_prop in G. destruct G as [G1 G2].
    cbn [print_fmt scan_fmt]. rewrite scan_print; auto.
    + rewrite IH; auto.
    + destruct f as [|[c|] f]; try discriminate. cbn [print_fmt stops]. now apply negb_true_iff in G1.
Qed.

Lemma print_fmt_nozero : forall f args, Forall (fun i => match i with FChar c => c <> 0 | FInt => True end) f ->
  ~ In 0 (print_fmt f args).
Proof.
  assert (D : forall n z, 0 <= z -> ~ In 0 (print_nat n z)).
  { intros n z Hz X. assert (F := print_nat_digits n z Hz). rewrite Forall_forall in F. assert (Y := F 0 X). discriminate. }
  induction f as [|[c|] f IH]; intros args H; inversion H as [|? ? H1 H2]; subst; cbn [print_fmt].
  - intros [].
  - intros [X|X]; [auto|]. eapply IH; eauto.
  - destruct args as [|a args]; [intros []|]. intros X. apply in_app_or in X. destruct X as [X|X]; [|eapply IH; eauto].
    unfold print_dec in X. destruct (a <? 0) eqn:E.
    + destruct X as [X|X]; [discriminate|]. eapply D; [|exact X]; lia.
    + eapply D; [|exact X]; lia.
Qed.

(* length of numbers *)
Lemma print_nat_len : forall k n z, 0 <= z < 10 ^ Z.of_nat (S k) -> (length (print_nat n z) <= S k)%nat.
Proof.
  induction k as [|k IH]; intros n z Hz; destruct n as [|n]; cbn [print_nat]; try (simpl; lia).
  - change (10 ^ Z.of_nat 1) with 10 in Hz. destruct (z <? 10) eqn:E; [simpl; lia|lia].
  - destruct (z <? 10) eqn:E; [simpl; lia|]. rewrite app_length. cbn [length].
    assert (length (print_nat n (z / 10)) <= S k)%nat; [|lia]. apply IH.
    assert (10 ^ Z.of_nat (S (S k)) = 10 * 10 ^ Z.of_nat (S k)) as P by (rewrite (Nat2Z.inj_succ (S k)); apply Z.pow_succ_r; lia).
    split; [apply Z.div_pos; lia|]. apply Z.div_lt_upper_bound; lia.
Qed.
Lemma print_dec_len z : Int64 z -> (length (print_dec z) <= 20)%nat.
Proof.
  intros Hz. unfold Int64 in Hz. unfold print_dec. destruct (z <? 0) eqn:E.
  - cbn [length]. assert (length (print_nat (S (Z.to_nat (Z.log2 (- z)))) (- z)) <= 19)%nat; [|lia].
    apply (print_nat_len 18). change (10 ^ Z.of_nat 19) with 10000000000000000000. lia.
  - assert (length (print_nat (S (Z.to_nat (Z.log2 z))) z) <= 19)%nat; [|lia].
    apply (print_nat_len 18). change (10 ^ Z.of_nat 19) with 10000000000000000000. lia.
Qed.
