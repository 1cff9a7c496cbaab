(* C64: log messages are printed completely *)
From Coq Require Import ZArith List Bool Lia ZifyBool ZifyNat.
From Verif Require Import Base Model_Log Spec_Log Proof_Log.
Import ListNotations.
Open Scope Z_scope.

(* Any sequence of calls: the output is that of exactly the messages shown (level high
   enough, process within the filter), each one complete and laid out as specified; the
   program only ends if a panic message is shown. [pf n k] is the part of the prefix with
   location, counters and time, in line k of message n. *)
Theorem C64_messages : forall pf lv f t inst cs,
  (f < 0 \/ f <= t) -> (forall n k, (length (pf n k) <= 40)%nat) -> Forall SmallCall cs ->
  let ms := u_life (mkUser lv (here f t inst) None) cs in
  let r := llife pf (log_start lv f t inst) cs in
  (forall l m, In (l, m) ms -> Fits m) ->
  Output pf ms (fst r) /\
  ((exists m, In (5, m) ms) -> snd r = Panic) /\
  (~ (exists m, In (5, m) ms) -> exists s, snd r = Ok s).
Proof.
  intros pf lv f t inst cs FT P SC ms r F.
  destruct (life_ok pf f t inst FT ltac:(intros i j; specialize (P i j); unfold zlen; lia) cs
    (log_start lv f t inst) (mkUser lv (here f t inst) None) 0 ltac:(lia)) as [oss [R1 [R2 [R3 R4]]]]; auto.
  { constructor; simpl; auto. }
  fold ms in R2, R3, R4. fold r in R1, R4. split; [|split].
  - exists oss. split; auto.
  - intros [m H]. destruct (existsb _ ms) eqn:E; auto. exfalso.
    assert (X : existsb (fun p => fst p =? 5) ms = true) by (apply existsb_exists; exists (5, m); auto). congruence.
  - intros H. destruct (existsb _ ms) eqn:E; auto. exfalso. apply H. apply existsb_exists in E.
    destruct E as [[l m] [E1 E2]]. simpl in E2. exists m. replace 5 with l by lia. auto.
Qed.

(* Without bounds on words, indentation and prefix: a message is printed completely, or the
   line buffer overflows. So output is never silently cut or reordered *)
Theorem C64_complete : forall pf s, lg_cur s <> 0 -> lg_text s <> [] ->
  Shows (log_prefix (pf (lg_count s)) (lg_cur s)) (lg_text s) (fst (log_flush pf s)) \/ snd (log_flush pf s) = UB.
Proof.
  intros pf s C T. unfold log_flush. destruct (lg_cur s =? LL_None) eqn:E; [unfold LL_None in E; lia|].
  destruct (lg_text s) as [|x m] eqn:ET; [congruence|].
  destruct (log_lines (length (x :: m)) (pf (lg_count s)) (lg_cur s) (x :: m) 0 0 true 0) as [ls| | | |] eqn:EL; auto.
  all: destruct (message_ok (pf (lg_count s)) (lg_cur s) (x :: m)) as [ls' [R1 R2]];
    [right; rewrite EL; discriminate|rewrite EL in R1; try discriminate].
  injection R1 as ->. left. exact R2.
Qed.

(* the specification leaves nothing open: it determines the printed lines *)
Theorem C64_unique : forall pre m a b, Shows pre m a -> Shows pre m b -> a = b.
Proof. exact shows_unique. Qed.

(* So how a message was put together does not matter: pieces given one after the other are
   printed as the same message given at once *)
Theorem C64_pieces : forall pf lv f t inst l ms,
  (f < 0 \/ f <= t) -> (forall n k, (length (pf n k) <= 40)%nat) ->
  Forall (fun m => length m < 1024)%nat ms -> Fits (concat ms) ->
  let s := log_start lv f t inst in
  fst (llife pf s (LBegin l :: map LAppend ms ++ [LFlush None])) = fst (llife pf s [LLog l (concat ms)]).
Proof.
  intros pf lv f t inst l ms FT P SM F s.
  set (u := mkUser lv (here f t inst) None).
  assert (K : forall ms v, u_life v (map LAppend ms ++ [LFlush None]) = u_life (u_add v (concat ms)) [LFlush None]).
  { clear. induction ms as [|m ms IH]; intros v.
    - simpl. unfold u_add. destruct v as [a b [[l t]|]]; simpl; rewrite ?app_nil_r; auto.
    - change (map LAppend (m :: ms) ++ [LFlush None]) with (LAppend m :: (map LAppend ms ++ [LFlush None])).
      change (u_life v (LAppend m :: (map LAppend ms ++ [LFlush None])))
        with (u_life (u_add v m) (map LAppend ms ++ [LFlush None])).
      rewrite IH. f_equal. unfold u_add. destruct v as [a b [[l t]|]]; simpl; auto. rewrite <- app_assoc. auto. }
  assert (E : u_life u (LBegin l :: map LAppend ms ++ [LFlush None]) = u_life u [LLog l (concat ms)]).
  { change (u_life u (LBegin l :: map LAppend ms ++ [LFlush None]))
      with (u_life (u_begin u l) (map LAppend ms ++ [LFlush None])).
    rewrite K. simpl. destruct (u_msg (u_add (u_begin u l) (concat ms))) as [[? ?]|]; auto. }
  assert (FM : forall l' m, In (l', m) (u_life u [LLog l (concat ms)]) -> Fits m).
  { simpl. unfold u_add, u_begin, u_msg. simpl. intros l' m.
    destruct (_ && _); simpl; [|tauto]. destruct (concat ms) as [|x c]; simpl; [tauto|].
    destruct (l =? 5); simpl; intros [X|[]]; injection X as <- <-; auto. }
  destruct (C64_messages pf lv f t inst (LBegin l :: map LAppend ms ++ [LFlush None]) FT P) as [[o1 [A1 [A2 A3]]] _].
  { constructor; [simpl; auto|]. apply Forall_app. split; [|repeat constructor].
    apply Forall_map. eapply Forall_impl; [|exact SM]. auto. }
  { fold u. rewrite E. exact FM. }
  destruct (C64_messages pf lv f t inst [LLog l (concat ms)] FT P) as [[o2 [B1 [B2 B3]]] _].
  { repeat constructor. } { exact FM. }
  fold u in A2, A3, B2, B3. fold s in A1, B1. rewrite E in A2, A3. rewrite A1, B1. f_equal.
  apply nth_ext with (d := []) (d' := []); [congruence|]. intros i H.
  destruct (nth_error (u_life u [LLog l (concat ms)]) i) as [[l' m]|] eqn:X.
  - destruct (A3 i l' m X) as [x [X1 X2]]. destruct (B3 i l' m X) as [y [Y1 Y2]].
    rewrite (nth_error_nth _ _ [] X1), (nth_error_nth _ _ [] Y1). eapply C64_unique; eauto.
  - apply nth_error_None in X. lia.
Qed.

(* Hypotheses of C64_messages are met: a message with an indented, wrapped paragraph, built
   in pieces, a hidden message, a warning and a panic *)
Fixpoint words_b (cur : nat) (m : list Z) : bool :=
  match m with
  | [] => (cur <=? 90)%nat
  | c :: r => if (c =? 32) || (c =? 10) then (cur <=? 90)%nat && words_b 0 r else words_b (S cur) r
  end.

Lemma words_b_ok m : forall cur, words_b cur m = true ->
  (cur <= 90)%nat /\ forall a w b, m = a ++ w ++ b -> NoBlank w -> (length w + (match a with [] => cur | _ => 0 end) <= 90)%nat.
Proof.
  induction m as [|c m IH]; intros cur H; simpl in H.
  - split; [lia|]. intros a w b E _. destruct a, w; try discriminate. simpl. lia.
  - destruct ((c =? 32) || (c =? 10)) eqn:B.
    + apply andb_prop in H. destruct H as [H1 H2]. destruct (IH 0%nat H2) as [_ K]. split; [lia|].
      intros [|x a] w b E N.
      * destruct w as [|y w]; [simpl; lia|]. exfalso. simpl in E. injection E as -> E. destruct N as [N1 N2].
        assert (y = 32 \/ y = 10) as [-> | ->] by lia; [apply N1|apply N2]; left; auto.
      * simpl in E. injection E as _ E. specialize (K a w b E N). destruct a; lia.
    + destruct (IH (S cur) H) as [K0 K]. split; [lia|]. intros [|x a] w b E N.
      * destruct w as [|y w]; [simpl; lia|]. simpl in E. injection E as _ E.
        specialize (K [] w b E). simpl in *. destruct N as [N1 N2].
        assert (NoBlank w) by (split; intros X; [apply N1|apply N2]; right; auto). specialize (K H0). lia.
      * simpl in E. injection E as _ E. specialize (K a w b E N). destruct a; lia.
Qed.

Lemma fits_b m : words_b 0 m = true -> (count_occ Z.eq_dec m 32%Z <= 100)%nat -> Fits m.
Proof.
  intros H C. split.
  - intros a w b E N. destruct (words_b_ok m 0 H) as [_ K]. specialize (K a w b E N). destruct a; lia.
  - intros a n b E _. rewrite E, !count_occ_app in C.
    assert (count_occ Z.eq_dec (repeat 32 n) 32 = n).
    { clear. induction n; simpl; auto. }
    lia.
Qed.

Definition lx_w (c : Z) (n : nat) : list Z := repeat c n.
Definition lx_m1 : list Z := [32; 32] ++ lx_w 97 60 ++ [32].
Definition lx_m2 : list Z := lx_w 98 60 ++ [32] ++ lx_w 99 5 ++ [10].
Definition lx_pf (n k : Z) : list Z := [76; 48; 49; 32; 124; 32].
Definition lx_cs : list lcall :=
  [LBegin 4; LAppend lx_m1; LFlush (Some lx_m2); LLog 1 (lx_w 100 5); LSet 3; LLog 3 (lx_w 101 5); LPanic (lx_w 102 5); LLog 4 [103]].
Example C64_case :
  Forall SmallCall lx_cs /\
  u_life (mkUser 4 (here 1 2 (Some 1)) None) lx_cs = [(4, lx_m1 ++ lx_m2); (3, lx_w 101 5); (5, lx_w 102 5)] /\
  Forall (fun p => Fits (snd p)) (u_life (mkUser 4 (here 1 2 (Some 1)) None) lx_cs) /\
  llife lx_pf (log_start 4 1 2 (Some 1)) lx_cs =
    ([ [61; 61; 32; 76; 48; 49; 32; 124; 32; 69; 82; 82; 79; 82; 32; 32; 58; 32; 32; 32] ++ lx_w 97 60 ++ [10];
       [46; 46; 32; 76; 48; 49; 32; 124; 32] ++ lx_w 32 7 ++ [58; 32] ++ lx_w 32 6 ++ lx_w 98 60 ++ [32] ++ lx_w 99 5 ++ [10];
       [61; 61; 32; 76; 48; 49; 32; 124; 32; 87; 97; 114; 110; 105; 110; 103; 58; 32] ++ lx_w 101 5 ++ [10];
       [61; 61; 32; 76; 48; 49; 32; 124; 32; 80; 65; 78; 73; 67; 32; 32; 58; 32] ++ lx_w 102 5 ++ [10] ], Panic).
Proof.
  split; [|split; [|split]].
  - unfold lx_cs. repeat constructor; simpl; lia.
  - vm_compute. reflexivity.
  - replace (u_life (mkUser 4 (here 1 2 (Some 1)) None) lx_cs) with [(4, lx_m1 ++ lx_m2); (3, lx_w 101 5); (5, lx_w 102 5)]
      by (vm_compute; reflexivity).
    do 3 (apply Forall_cons; [apply fits_b; [vm_compute; reflexivity|apply Nat.leb_le; vm_compute; reflexivity]|]). constructor.
  - vm_compute. reflexivity.
Qed.

(* The bound on pieces is needed: the message buffer is doubled, or enlarged to the new
   piece alone, without counting the text before it. 600 characters followed by 1500 end
   the program, also for a message which is no panic *)
Theorem C64_pieces_refuted : exists pf lv l a b,
  snd (llife pf (log_start lv (-1) 0 (Some 0)) [LBegin l; LAppend a; LAppend b; LFlush None]) = Abort /\
  l <> 5 /\ Fits (a ++ b) /\ (forall n k, (length (pf n k) <= 40)%nat).
Proof.
  exists lx_pf, 1, 2, (concat (repeat (lx_w 97 59 ++ [10]) 10)), (concat (repeat (lx_w 97 59 ++ [10]) 25)).
  split; [vm_compute; reflexivity|]. split; [lia|]. split; [|intros; simpl; lia].
  apply fits_b; [vm_compute; reflexivity|apply Nat.leb_le; vm_compute; reflexivity].
Qed.

(* The bound on words is needed: a word of 300 characters is written behind the end of the
   line buffer; the assert for this comes after the write *)
Theorem C64_word_refuted : exists pf l m,
  snd (llife pf (log_start 1 (-1) 0 (Some 0)) [LLog l m]) = UB /\ Indents m /\
  (forall n k, (length (pf n k) <= 40)%nat).
Proof.
  exists lx_pf, 4, (lx_w 97 300). split; [vm_compute; reflexivity|]. split; [|intros; simpl; lia].
  intros a n b E _. assert (C : count_occ Z.eq_dec (lx_w 97 300) 32 = 0%nat) by reflexivity.
  rewrite E, !count_occ_app in C.
  assert (count_occ Z.eq_dec (repeat 32 n) 32 = n) by (clear; induction n; simpl; auto). lia.
Qed.

(* laik_panic returns in a process outside of the filter of LAIK_LOG, with a minimal level
   above 5, or with an empty text *)
Theorem C64_panic_refuted : forall pf,
  (exists f t me m, f <= t /\ m <> [] /\ exists s, llife pf (log_start 1 f t (Some me)) [LPanic m] = ([], Ok s)) /\
  (exists lv m, m <> [] /\ exists s, llife pf (log_start lv (-1) 0 (Some 0)) [LPanic m] = ([], Ok s)) /\
  (exists s, llife pf (log_start 1 (-1) 0 (Some 0)) [LPanic []] = ([], Ok s)).
Proof.
  intros pf. split; [|split].
  - exists 0, 0, 1, [97]. split; [lia|]. split; [discriminate|]. eexists. vm_compute. reflexivity.
  - exists 6, [97]. split; [discriminate|]. eexists. vm_compute. reflexivity.
  - eexists. vm_compute. reflexivity.
Qed.

(* otherwise laik_panic prints its message and ends the program *)
Theorem C64_panic : forall pf lv f t inst m,
  (f < 0 \/ f <= t) -> here f t inst = true -> lv <= 5 -> m <> [] -> Fits m ->
  (forall n k, (length (pf n k) <= 40)%nat) ->
  let r := llife pf (log_start lv f t inst) [LPanic m] in
  snd r = Panic /\ Shows (log_prefix (pf 0) 5) m (fst r).
Proof.
  intros pf lv f t inst m FT H LV N F P r.
  assert (E : u_life (mkUser lv (here f t inst) None) [LPanic m] = [(5, m)]).
  { simpl. unfold u_add, u_begin, u_msg. simpl. rewrite H. replace (lv <=? 5) with true by lia. simpl.
    destruct m; [congruence|]. reflexivity. }
  destruct (C64_messages pf lv f t inst [LPanic m] FT P) as [[o [A1 [A2 A3]]] [B _]].
  { repeat constructor. }
  { rewrite E. intros l x [X|[]]. injection X as <- <-. auto. }
  rewrite E in *. split; [apply B; exists m; left; auto|].
  destruct (A3 0%nat 5 m eq_refl) as [ls [X1 X2]]. unfold r. rewrite A1.
  destruct o as [|x o]; [discriminate|]. destruct o; [|discriminate]. injection X1 as ->. simpl. rewrite app_nil_r. exact X2.
Qed.

Print Assumptions C64_messages.
Print Assumptions C64_complete.
Print Assumptions C64_unique.
Print Assumptions C64_pieces.
Print Assumptions C64_case.
Print Assumptions C64_pieces_refuted.
Print Assumptions C64_word_refuted.
Print Assumptions C64_panic_refuted.
Print Assumptions C64_panic.
