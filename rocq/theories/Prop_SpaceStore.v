(* Property C44: index spaces published in the space store *)
From Coq Require Import ZArith List Bool Lia ZifyBool ZifyNat.
From Verif Require Import Base Model_Space Model_RangeList Model_KVS Model_SpaceStore Spec_RangeList Spec_KVS Spec_SpaceStore Proof_RangeList Proof_SpaceStore Prop_KVS.
Import ListNotations.
Open Scope Z_scope.

Lemma put_ok (l v : list Z) : (if Z.of_nat (length l) + 1 >? 100 then UB else Ok l) = Ok v -> v = l.
Proof. destruct (_ >? _); congruence. Qed.

(* Parsing a serialised space restores dimension and borders, whatever was in the space object before *)
Theorem C44_roundtrip : forall s v t, Space64 s -> space_serialize s = Ok v ->
  exists s', space_set t v = (true, s') /\ SameSpace s s' /\ so_id s' = so_id t.
Proof.
  intros [id d sp [[f0 f1 f2] [t0 t1 t2]]] v [id' d' sp' [[a0 a1 a2] [b0 b1 b2]]] (Hd & (F0 & F1 & F2) & (T0 & T1 & T2)) E.
  unfold space_serialize in E. cbn in Hd, F0, F1, F2, T0, T1, T2. cbn [so_dims so_box b_from b_to Model_Space.i0 Model_Space.i1 Model_Space.i2] in E.
  destruct Hd as [ -> | [ -> | -> ] ]; apply put_ok in E; subst v; unfold space_set; cbn [so_id so_rspace so_box b_from b_to Model_Space.i0 Model_Space.i1 Model_Space.i2].
  - change ((49 <? 49) || (49 >? 51)) with false. change (49 - 48 =? 1) with true. cbn iota.
    rewrite scan_print_fmt by first [reflexivity | repeat (apply Forall_cons; [assumption|]); apply Forall_nil]. eexists. split; [reflexivity|]. unfold SameSpace, same_to. cbn. repeat split; auto; lia.
  - change ((50 <? 49) || (50 >? 51)) with false. change (50 - 48 =? 1) with false. change (50 - 48 =? 2) with true. cbn iota.
    rewrite scan_print_fmt by first [reflexivity | repeat (apply Forall_cons; [assumption|]); apply Forall_nil]. eexists. split; [reflexivity|]. unfold SameSpace, same_to. cbn. repeat split; auto; lia.
  - change ((51 <? 49) || (51 >? 51)) with false. change (51 - 48 =? 1) with false. change (51 - 48 =? 2) with false. cbn iota.
    rewrite scan_print_fmt by first [reflexivity | repeat (apply Forall_cons; [assumption|]); apply Forall_nil]. eexists. split; [reflexivity|]. unfold SameSpace, same_to. cbn. repeat split; auto; lia.
Qed.

(* so different spaces are never stored as the same string *)
Theorem C44_distinct : forall s1 s2 v, Space64 s1 -> Space64 s2 -> space_serialize s1 = Ok v -> space_serialize s2 = Ok v -> SameSpace s1 s2.
Proof.
  intros s1 s2 v H1 H2 E1 E2. destruct (C44_roundtrip s1 v s1 H1 E1) as [t [A [B _]]]. destruct (C44_roundtrip s2 v s1 H2 E2) as [t' [A' [B' _]]].
  rewrite A in A'. injection A' as <-. destruct B as (B1 & (B2 & B3 & B4) & (B5 & B6 & B7)), B' as (C1 & (C2 & C3 & C4) & (C5 & C6 & C7)).
  unfold SameSpace, same_to. rewrite B1, <- C1 in *. repeat split; try congruence; intros; [rewrite B3, C3|rewrite B4, C4|rewrite B6, C6|rewrite B7, C7]; auto.
Qed.

(* the buffer is large enough for all 1d and 2d spaces, and for 3d spaces with borders of at most 15 characters *)
Theorem C44_fits : forall s, Space64 s ->
  (so_dims s = 3%nat -> Forall (fun z => - 10 ^ 14 < z < 10 ^ 15)
     [i0 (b_from (so_box s)); i1 (b_from (so_box s)); i2 (b_from (so_box s)); i0 (b_to (so_box s)); i1 (b_to (so_box s)); i2 (b_to (so_box s))]) ->
  exists v, space_serialize s = Ok v /\ CString (v ++ [0]).
Proof.
  intros [id d sp [[f0 f1 f2] [t0 t1 t2]]] (Hd & (F0 & F1 & F2) & (T0 & T1 & T2)) H3.
  cbn in Hd, F0, F1, F2, T0, T1, T2, H3. unfold space_serialize. cbn [so_dims so_box b_from b_to Model_Space.i0 Model_Space.i1 Model_Space.i2].
  assert (NZ : forall c f args, c <> 0 -> Forall (fun i => match i with FChar c => c <> 0 | FInt => True end) f -> CString ((c :: print_fmt f args) ++ [0])).
  { intros c f args Hc Hf. exists (c :: print_fmt f args). split; auto. intros [X|X]; auto. eapply print_fmt_nozero; eauto. }
  destruct Hd as [ -> | [ -> | -> ] ]; cbn iota.
  - exists (49 :: print_fmt fmt1 [f0; t0]). split; [|apply NZ; [lia|repeat constructor; lia]].
    assert (L : Z.of_nat (length (49 :: print_fmt fmt1 [f0; t0])) <= 44).
    { unfold fmt1. cbn [print_fmt length]. rewrite !app_length. cbn [length]. rewrite !app_length. cbn [length].
      assert (X := print_dec_len f0 F0). assert (Y := print_dec_len t0 T0). lia. }
    destruct (_ >? _) eqn:E; [lia|reflexivity].
  - exists (50 :: print_fmt fmt2 [f0; f1; t0; t1]). split; [|apply NZ; [lia|repeat constructor; lia]].
    assert (L : Z.of_nat (length (50 :: print_fmt fmt2 [f0; f1; t0; t1])) <= 86).
    { unfold fmt2. cbn [print_fmt length]. do 4 (rewrite app_length; cbn [length]).
      assert (X := print_dec_len f0 F0). assert (Y := print_dec_len t0 T0). assert (X1 := print_dec_len f1 F1). assert (Y1 := print_dec_len t1 T1). lia. }
    destruct (_ >? _) eqn:E; [lia|reflexivity].
  - exists (51 :: print_fmt fmt3 [f0; f1; f2; t0; t1; t2]). split; [|apply NZ; [lia|repeat constructor; lia]].
    assert (P : forall z, - 10 ^ 14 < z < 10 ^ 15 -> (length (print_dec z) <= 15)%nat).
    { intros z Hz. unfold print_dec. destruct (z <? 0) eqn:E.
      - cbn [length]. assert (length (print_nat (S (Z.to_nat (Z.log2 (- z)))) (- z)) <= 14)%nat; [|lia].
        apply (print_nat_len 13). change (10 ^ Z.of_nat 14) with (10 ^ 14). lia.
      - apply (print_nat_len 14). change (10 ^ Z.of_nat 15) with (10 ^ 15). lia. }
    specialize (H3 eq_refl). inversion H3 as [|? ? A0 H4]; subst. inversion H4 as [|? ? A1 H5]; subst. inversion H5 as [|? ? A2 H6]; subst.
    inversion H6 as [|? ? B0 H7]; subst. inversion H7 as [|? ? B1 H8]; subst. inversion H8 as [|? ? B2 _]; subst.
    assert (L : Z.of_nat (length (51 :: print_fmt fmt3 [f0; f1; f2; t0; t1; t2])) <= 98).
    { unfold fmt3. cbn [print_fmt length]. do 6 (rewrite app_length; cbn [length]).
      assert (X := P _ A0). assert (X1 := P _ A1). assert (X2 := P _ A2). assert (Y := P _ B0). assert (Y1 := P _ B1). assert (Y2 := P _ B2). lia. }
    destruct (_ >? _) eqn:E; [lia|reflexivity].
Qed.

Lemma cstr_of l : ~ In 0 l -> cstr (l ++ [0]) = l.
Proof.
  induction l as [|c l IH]; intros H; [reflexivity|]. cbn [app cstr]. destruct (c =? 0) eqn:E; [exfalso; apply H; left; lia|].
  f_equal. apply IH. intros X. apply H. now right.
Qed.
Lemma ser_nozero s v : Space64 s -> space_serialize s = Ok v -> ~ In 0 v.
Proof.
  intros (Hd & _) E. unfold space_serialize in E. destruct Hd as [X|[X|X]]; rewrite X in E; apply put_ok in E; subst v; intros [Y|Y]; try discriminate;
  (eapply print_fmt_nozero; [|exact Y]); repeat constructor; lia.
Qed.

(* a process finding the string in its store gets a space with the same dimension and borders ... *)
Theorem C44_get : forall st name s v id junk, Space64 s -> space_serialize s = Ok v -> kvs_get st name = Ok (Some (v ++ [0])) ->
  exists s', spacestore_get st name id junk = Ok (Some s') /\ SameSpace s s'.
Proof.
  intros st name s v id junk Hs E G. unfold spacestore_get. assert (G' := G). unfold kvs_get in G'.
  destruct (kvs_entry st name) as [[i|]| | | |] eqn:X; try discriminate. cbn [obind]. rewrite G. cbn [obind].
  rewrite cstr_of by (eapply ser_nozero; eauto). destruct (C44_roundtrip s v (new_space id junk) Hs E) as [s' [A [B _]]]. rewrite A.
  exists s'. split; auto.
Qed.

(* ... so a space published by one process (name not changed differently by others) is known to all of them after
   the next synchronisation. Here [h] are the operations of the publishing process since the last one. *)
Theorem C44_published : forall qj q n w ops w' B h name s v st id junk, is_qsort entrycmp qj -> is_qsort kvs_cmp q ->
  World CString qj q n w -> length ops = n -> Forall (Forall (OpOk CString)) ops -> (forall s, In s w -> Holds s B) ->
  exec_round qj q w ops = Ok w' ->
  Space64 s -> space_serialize s = Ok v ->
  In h ops -> fold_left map_op h B name = Some (v ++ [0]) -> B name <> Some (v ++ [0]) ->
  In st w' ->
  exists s', spacestore_get st name id junk = Ok (Some s') /\ SameSpace s s'.
Proof.
  intros qj q n w ops w' B h name s v st id junk Qj Q HW HL HO HB HE Hs Ev Hh Ef Nb Hst.
  destruct (C42_result CString qj q n w ops w' B C41_strings Qj Q HW HL HO HB HE) as [B' (_ & A & C & _)].
  apply C44_get with (v := v); auto. rewrite (A st Hst name). f_equal. rewrite <- Ef. apply (C h name Hh). congruence.
Qed.

(* spacestore_set is such an operation *)
Theorem C44_set_is_op : forall q st name s v, space_serialize s = Ok v -> spacestore_set st name s = exec_op q st (OSet name (v ++ [0])).
Proof. intros q st name s v E. unfold spacestore_set. rewrite E. reflexivity. Qed.

(* the strings are as documented *)
Definition c44_s : sobj := mkSo 5 2 (Some 5%nat) (mkBox (mkIdx (-7) 0 0) (mkIdx 120 9223372036854775807 0)).
Example C44_string : space_serialize c44_s = Ok [50; 40; 45; 55; 44; 48; 47; 49; 50; 48; 44; 57; 50; 50; 51; 51; 55; 50; 48; 51; 54; 56; 53; 52; 55; 55; 53; 56; 48; 55; 41].
Proof. reflexivity. Qed.
Definition c44_v : list Z := Eval vm_compute in match space_serialize c44_s with Ok v => v | _ => [] end.
Definition c44_w : list store := Eval vm_compute in match exec_round (isort entrycmp) (isort kvs_cmp) [xs0; xs0; xs0] [[]; [OSet ka (c44_v ++ [0])]; []] with Ok w => w | _ => [] end.
Example C44_example : Space64 c44_s /\ World CString (isort entrycmp) (isort kvs_cmp) 3 [xs0; xs0; xs0] /\
  exec_round (isort entrycmp) (isort kvs_cmp) [xs0; xs0; xs0] [[]; [OSet ka (c44_v ++ [0])]; []] = Ok c44_w /\ length c44_w = 3%nat /\
  forall st, In st c44_w -> spacestore_get st ka 9 (None, mkBox (mkIdx 1 2 3) (mkIdx 4 5 6)) =
    Ok (Some (mkSo 9 2 None (mkBox (mkIdx (-7) 0 3) (mkIdx 120 9223372036854775807 6)))).
Proof.
  split; [unfold Space64, Index64, Int64; cbn; lia|]. split; [apply (World_new CString _ _ 3 xs0); reflexivity|].
  split; [vm_compute; reflexivity|]. split; [reflexivity|]. intros st [<-|[<-|[<-|[]]]]; vm_compute; reflexivity.
Qed.

(* Refuted: a 3d space with large borders is written beyond the end of the buffer *)
Theorem C44_3d_refuted : exists s, Space64 s /\ so_rspace s = Some (so_id s) /\ space_serialize s = UB.
Proof.
  exists (mkSo 1 3 (Some 1%nat) (mkBox (mkIdx (-4000000000000000) (-4000000000000000) (-4000000000000000)) (mkIdx 4000000000000000 4000000000000000 4000000000000000))).
  split; [unfold Space64, Index64, Int64; cbn; lia|]. split; [reflexivity|]. vm_compute. reflexivity.
Qed.

(* Refuted: a space got from the store cannot be used as the space of the publishing process. The space pointer
   in its range is not set (here NULL in fresh memory), so that e.g. appending this range in a partitioner aborts. *)
Definition as_space (s : sobj) : space := mkSpace (so_id s) (so_dims s) (so_box s).
Definition own_range (s : sobj) : range := mkRange (option_map (fun id => mkSpace id (so_dims s) (so_box s)) (so_rspace s)) (so_box s).
Theorem C44_usable_refuted : exists s v s', Space64 s /\ space_serialize s = Ok v /\
  space_set (new_space 9 (None, mkBox (mkIdx 0 0 0) (mkIdx 0 0 0))) v = (true, s') /\ SameSpace s s' /\
  is_ok (rl_append (rl_new (as_space s) 2) 0 (own_range s) 0) = true /\
  rl_append (rl_new (as_space s') 2) 0 (own_range s') 0 = Abort.
Proof.
  exists (new_space_1d 1 100). eexists. eexists. split; [unfold Space64, Index64, Int64; cbn; lia|].
  split; [vm_compute; reflexivity|]. split; [vm_compute; reflexivity|]. split; [unfold SameSpace, same_to; cbn; repeat split; lia|].
  split; vm_compute; reflexivity.
Qed.

Print Assumptions C44_roundtrip.
Print Assumptions C44_distinct.
Print Assumptions C44_fits.
Print Assumptions C44_get.
Print Assumptions C44_published.
Print Assumptions C44_set_is_op.
Print Assumptions C44_string.
Print Assumptions C44_example.
Print Assumptions C44_3d_refuted.
Print Assumptions C44_usable_refuted.
