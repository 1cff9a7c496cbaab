(* Proofs about log messages *)
From Coq Require Import ZArith List Bool Lia ZifyBool ZifyNat.
From Verif Require Import Base Model_Log Spec_Log.
Import ListNotations.
Open Scope Z_scope.

Lemma indent_ok r : forall n r', log_indent r = (n, r') ->
  0 <= n /\ r = repeat 32 (Z.to_nat n) ++ r' /\ (forall x t, r' = x :: t -> x <> 32).
Proof.
  induction r as [|c r IH]; intros n r' E; simpl in E.
  - injection E as <- <-. split; [lia|]. split; auto. discriminate.
  - destruct (c =? ch_sp) eqn:C.
    + destruct (log_indent r) as [m r1]. injection E as <- <-.
      destruct (IH m r1 eq_refl) as [A [B D]]. split; [lia|]. split; auto.
      replace (Z.to_nat (m + 1)) with (S (Z.to_nat m)) by lia. simpl. unfold ch_sp in C. f_equal; [lia|auto].
    + injection E as <- <-. split; [lia|]. split; auto. intros x t F. injection F as <- <-. unfold ch_sp in C. lia.
Qed.

Definition Wide (sp : Z) (t : list Z) : Prop := forall a b, t = a ++ 32 :: b -> sp + zlen a <= 100.

(* where the scan of a line stops *)
Lemma scan_ok sp off1 : 0 <= off1 -> forall rest done lb off nl,
  ~ In 10 done -> Wide sp done ->
  (if lb =? 0 then ~ In 32 done
   else exists a b, done = a ++ 32 :: b /\ lb = off1 + zlen a /\ ~ In 32 b) ->
  (off1 + zlen done = 0 -> forall x t, rest = x :: t -> x <> 32) ->
  log_scan sp off1 (off1 + zlen done) lb rest = (off, nl) ->
  exists t e, done ++ rest = t ++ e /\ off = off1 + zlen t /\ ~ In 10 t /\ Wide sp t /\
    ((nl = false /\ e = []) \/ (nl = true /\ exists e', e = 10 :: e') \/
     (nl = false /\ (exists e', e = 32 :: e' /\
       ((sp + zlen t > 100 /\ ~ In 32 t) \/ sp + zlen t <= 100 /\ exists w y, e' = w ++ 32 :: y /\ NoBlank w /\ sp + zlen t + 1 + zlen w > 100)))).
Proof.
  intros O. induction rest as [|c r IH]; intros done lb off nl N W L Z0 E; simpl in E.
  - injection E as <- <-. exists done, []. repeat split; auto.
  - destruct (c =? ch_nl) eqn:C1.
    { injection E as <- <-. exists done, (c :: r). split; auto. split; auto. split; auto. split; auto.
      right; left. split; auto. exists r. f_equal. unfold ch_nl in C1. lia. }
    destruct (c =? ch_sp) eqn:C2.
    + assert (c = 32) by (unfold ch_sp in C2; lia). subst c. unfold LINE_LEN in E.
      replace (off1 + zlen done - off1) with (zlen done) in E by lia.
      destruct (100 <? sp + zlen done) eqn:C3.
      * injection E as <- <-. destruct (lb =? 0) eqn:B.
        { exists done, (32 :: r). split; auto. split; auto. split; auto. split; auto.
          right; right. split; auto. exists r. split; auto. left. split; [lia|auto]. }
        destruct L as [a [b [D1 [D2 D3]]]]. exists a, (32 :: b ++ 32 :: r). split.
        { rewrite D1, <- app_assoc. reflexivity. }
        split; auto. split. { intros X. apply N. rewrite D1. apply in_or_app; auto. }
        split. { intros x y F. apply (W x (y ++ 32 :: b)). rewrite D1, F, <- app_assoc. reflexivity. }
        right; right. split; auto. exists (b ++ 32 :: r). split; auto. right. split; [apply (W a b); auto|]. exists b, r. split; auto.
        split. { split; auto. intros X. apply N. rewrite D1. apply in_or_app. right. right. auto. }
        assert (zlen done = zlen a + 1 + zlen b). { rewrite D1. unfold zlen. rewrite app_length. simpl. lia. } lia.
      * assert (Hz : off1 + zlen done <> 0). { intros X. apply (Z0 X 32 r); auto. }
        replace (off1 + zlen done + 1) with (off1 + zlen (done ++ [32])) in E
          by (unfold zlen; rewrite app_length; simpl; lia).
        destruct (IH (done ++ [32]) (off1 + zlen done) off nl) as [t [e R]]; auto.
        { intros X. apply in_app_or in X. destruct X as [X|[X|[]]]; auto. discriminate. }
        { intros a b F. destruct (list_eq_dec Z.eq_dec b []) as [->|B].
          - apply app_inj_tail in F. destruct F as [<- _]. lia.
          - destruct (exists_last B) as [b' [z ->]].
            replace (a ++ 32 :: b' ++ [z]) with ((a ++ 32 :: b') ++ [z]) in F by (rewrite <- app_assoc; reflexivity).
            apply app_inj_tail in F. destruct F as [F _]. apply (W a b'); auto. }
        { destruct (off1 + zlen done =? 0) eqn:B; [lia|]. exists done, []. auto. }
        { intros X. unfold zlen in X. rewrite app_length in X. simpl in X. lia. }
        exists t, e. rewrite <- app_assoc in R. exact R.
    + replace (off1 + zlen done + 1) with (off1 + zlen (done ++ [c])) in E
        by (unfold zlen; rewrite app_length; simpl; lia).
      unfold ch_sp, ch_nl in *.
      destruct (IH (done ++ [c]) lb off nl) as [t [e R]]; auto.
      { intros X. apply in_app_or in X. destruct X as [X|[X|[]]]; auto. lia. }
      { intros a b F. destruct (list_eq_dec Z.eq_dec b []) as [->|B].
        - apply app_inj_tail in F. lia.
        - destruct (exists_last B) as [b' [z ->]].
          replace (a ++ 32 :: b' ++ [z]) with ((a ++ 32 :: b') ++ [z]) in F by (rewrite <- app_assoc; reflexivity).
          apply app_inj_tail in F. destruct F as [F _]. apply (W a b'); auto. }
      { destruct (lb =? 0).
        - intros X. apply in_app_or in X. destruct X as [X|[X|[]]]; auto. lia.
        - destruct L as [a [b [D1 [D2 D3]]]]. exists a, (b ++ [c]). split; [rewrite D1, <- app_assoc; reflexivity|].
          split; auto. intros X. apply in_app_or in X. destruct X as [X|[X|[]]]; auto. lia. }
      { intros X. unfold zlen in X. rewrite app_length in X. simpl in X. lia. }
      exists t, e. rewrite <- app_assoc in R. exact R.
Qed.

(* indentations of the rest of a message; at its start only if it is the start of a line *)
Definition Ind' (nl : bool) (m : list Z) : Prop :=
  forall a n b, m = a ++ repeat 32 n ++ b -> ((nl = true /\ a = []) \/ exists a', a = a' ++ [10]) -> (n <= 100)%nat.

Lemma words_tail x m : Words (x ++ m) -> Words m.
Proof. intros H a w b E. apply (H (x ++ a) w b). rewrite E, <- app_assoc. reflexivity. Qed.

Lemma ind_tail nl nl' x m : Ind' nl (x ++ m) -> (nl' = true -> exists x', x = x' ++ [10]) -> Ind' nl' m.
Proof.
  intros H T a n b E F. apply (H (x ++ a) n b). { rewrite E, <- app_assoc. reflexivity. }
  right. destruct F as [[F1 ->]|[a' ->]].
  - destruct (T F1) as [x' ->]. exists x'. rewrite app_nil_r. auto.
  - exists (x ++ a'). rewrite app_assoc. auto.
Qed.

Lemma last_word t : ~ In 32 t \/ exists a w, t = a ++ 32 :: w /\ ~ In 32 w.
Proof.
  induction t as [|x t IH]; [left; auto|].
  destruct IH as [H|[a [w [-> H]]]].
  - destruct (Z.eq_dec x 32) as [->|N]; [right; exists [], t; auto|]. left. intros [X|X]; auto.
  - right. exists (x :: a), w. auto.
Qed.

Lemma lstr_len l k : zlen (log_lstr l k) <= 9.
Proof.
  unfold log_lstr. destruct (_ || _); [|unfold zlen; simpl; lia]. destruct (k =? 1); [|unfold zlen; simpl; lia].
  destruct (l =? LL_Warning); [unfold zlen; simpl; lia|]. destruct (l =? LL_Error); unfold zlen; simpl; lia.
Qed.

Lemma zlen_app {A} (a b : list A) : zlen (a ++ b) = zlen a + zlen b.
Proof. unfold zlen. rewrite app_length. lia. Qed.

Lemma zlen_nn {A} (a : list A) : 0 <= zlen a.
Proof. unfold zlen. lia. Qed.

Section Lines.
Context (pf : Z -> list Z) (l : Z).

Lemma lines_ok fuel : forall rest off1 sp nl k,
  (length rest <= fuel)%nat -> 0 <= off1 -> (off1 = 0 -> nl = true) -> 0 <= sp ->
  ((forall i, zlen (pf i) <= 40) /\ Words rest /\ Ind' nl rest /\ (nl = false -> sp <= 100))
  \/ log_lines fuel pf l rest off1 sp nl k <> UB ->
  exists ls ps, log_lines fuel pf l rest off1 sp nl k = Ok ls /\
    concat (map source ps) = rest /\ Laid (if nl then None else Some (Z.to_nat sp)) ps /\
    length ls = length ps /\
    forall i p, nth_error ps i = Some p -> nth_error ls i = Some (printed (log_prefix pf l (k + Z.of_nat i + 1)) p).
Proof.
  induction fuel as [|fuel IH]; intros rest off1 sp nl k F O O1 S0 G.
  { destruct rest; [|simpl in F; lia]. exists [], []. simpl. repeat split; auto. intros [|i] p E; discriminate. }
  destruct rest as [|c0 rest0]. { exists [], []. simpl. repeat split; auto. intros [|i] p E; discriminate. }
  remember (c0 :: rest0) as rest eqn:ER.
  assert (EL : log_lines (S fuel) pf l rest off1 sp nl k =
    (let '(n, rest1) := if nl then log_indent rest else (0, rest) in
      let spaces := if nl then n else sp in
      let '(off, nl') := log_scan spaces (off1 + n) (off1 + n) 0 rest1 in
      let n1 := Z.to_nat (off - (off1 + n)) in
      let line := log_prefix pf l (k + 1) ++ blanks (if nl then spaces else spaces + 4) ++ firstn n1 rest1 ++ [ch_nl] in
      if BUF2 <=? zlen line then UB else
      let rest2 := skipn n1 rest1 in
      do r <- log_lines fuel pf l (tl rest2) (match rest2 with [] => off | _ => off + 1 end) spaces nl' (k + 1);
      Ok (line :: r))).
  { rewrite ER. reflexivity. }
  rewrite EL in G. rewrite EL. clear EL.
  destruct (if nl then log_indent rest else (0, rest)) as [n rest1] eqn:EI.
  cbv zeta in G |- *. set (s1 := if nl then n else sp) in *.
  assert (HI : 0 <= n /\ rest = (if nl then repeat 32 (Z.to_nat n) else []) ++ rest1 /\
               (nl = true -> forall x t, rest1 = x :: t -> x <> 32) /\ (nl = false -> n = 0)).
  { destruct nl.
    - destruct (indent_ok _ _ _ EI) as [A [B C]]. repeat split; auto. discriminate.
    - injection EI as <- <-. repeat split; auto; try lia; discriminate. }
  destruct HI as [Hn [HR [Hs Hn0]]].
  assert (S1 : 0 <= s1) by (unfold s1; destruct nl; lia).
  destruct (log_scan s1 (off1 + n) (off1 + n) 0 rest1) as [off nl'] eqn:ES.
  destruct (scan_ok s1 (off1 + n) ltac:(lia) rest1 [] 0 off nl') as [t [e [E1 [E2 [E3 [E4 E5]]]]]].
  { auto. } { intros a b X. destruct a; discriminate. } { simpl. auto. }
  { intros X. apply Hs. apply O1. unfold zlen in X. simpl in X. lia. }
  { unfold zlen. simpl. rewrite Z.add_0_r. exact ES. }
  simpl in E1.
  assert (TN : Z.to_nat (off - (off1 + n)) = length t) by (unfold zlen in E2; lia).
  assert (FT : firstn (length t) rest1 = t) by (rewrite E1, firstn_app, firstn_all, Nat.sub_diag; simpl; apply app_nil_r).
  assert (SK : skipn (length t) rest1 = e) by (rewrite E1, skipn_app, skipn_all, Nat.sub_diag; reflexivity).
  cbv zeta in G |- *. rewrite TN, FT, SK in G. rewrite TN, FT, SK.
  set (line := log_prefix pf l (k + 1) ++ blanks (if nl then s1 else s1 + 4) ++ t ++ [ch_nl]) in *.
  set (e1 := match e with [] => [] | x :: _ => [x] end : list Z).
  assert (HE : e = e1 ++ tl e) by (destruct e; reflexivity).
  assert (HR2 : rest = ((if nl then repeat 32 (Z.to_nat n) else []) ++ t ++ e1) ++ tl e).
  { rewrite HR, E1, HE at 1. rewrite <- !app_assoc. reflexivity. }
  assert (HL : (length (tl e) <= fuel)%nat).
  { assert (HX : (length rest <= S fuel)%nat) by auto. rewrite HR2, !app_length in HX.
    destruct e as [|x e']; [simpl; lia|]. simpl in *. lia. }
  assert (G0 : ((forall i, zlen (pf i) <= 40) /\ Words rest /\ Ind' nl rest /\ s1 <= 100) \/
     (if BUF2 <=? zlen line then UB else
      do r <- log_lines fuel pf l (tl e) (match e with [] => off | _ => off + 1 end) s1 nl' (k + 1);
      Ok (line :: r)) <> UB).
  { destruct G as [[A [B [C D]]]|G]; [left|right; exact G]. repeat split; auto.
    unfold s1. destruct nl; [|auto]. apply (C [] (Z.to_nat n) rest1) in HR; auto. lia. }
  clear G.
  assert (NB : BUF2 <=? zlen line = false).
  { destruct G0 as [[A [B [C D]]]|G].
    - assert (s1 + zlen t <= 191).
      { assert (WB : forall a w, t = a ++ w -> ~ In 32 w -> zlen w <= 90).
        { intros a w X1 X2. enough (length w <= 90)%nat by (unfold zlen; lia).
          apply (B ((if nl then repeat 32 (Z.to_nat n) else []) ++ a) w e).
          - rewrite HR, E1, X1, <- !app_assoc. reflexivity.
          - split; auto. intros Y. apply E3. rewrite X1. apply in_or_app; auto. }
        destruct (last_word t) as [X|[a [w [X Y]]]].
        - pose proof (WB [] t eq_refl X). lia.
        - pose proof (E4 a w X). pose proof (WB (a ++ [32]) w). rewrite <- app_assoc in H0. specialize (H0 X Y).
          rewrite X, zlen_app. assert (zlen (32 :: w) = 1 + zlen w) by (unfold zlen; simpl; lia). lia. }
      unfold line, log_prefix, BUF2, LINE_LEN. rewrite !zlen_app. pose proof (A (k + 1)). pose proof (lstr_len l (k + 1)).
      assert (zlen (if k + 1 =? 1 then [61; 61; 32] else [46; 46; 32]) = 3) by (destruct (k + 1 =? 1); reflexivity).
      assert (zlen (blanks (if nl then s1 else s1 + 4)) <= s1 + 4).
      { unfold blanks, zlen. rewrite repeat_length. destruct nl; lia. }
      assert (zlen [ch_nl] = 1) by reflexivity. lia.
    - destruct (BUF2 <=? zlen line); auto. congruence. }
  rewrite NB in *.
  assert (ON : match e with [] => off | _ => off + 1 end = 0 -> nl' = true).
  { intros X. destruct e as [|x e'].
    - destruct t as [|y t'].
      + assert (rest1 = []) by auto. subst rest1.
        assert (rest = if nl then repeat 32 (Z.to_nat n) else []) by (rewrite HR, H; apply app_nil_r).
        exfalso. unfold zlen in E2. simpl in E2. assert (n = 0) by lia.
        subst n. simpl in H0. rewrite ER in H0. destruct nl; discriminate.
      + exfalso. unfold zlen in E2. simpl length in E2. lia.
    - exfalso. pose proof (zlen_nn t). lia. }
  assert (OP : 0 <= match e with [] => off | _ => off + 1 end) by (pose proof (zlen_nn t); destruct e; lia).
  destruct (IH (tl e) (match e with [] => off | _ => off + 1 end) s1 nl' (k + 1) HL OP ON S1) as [ls [ps [R1 [R2 [R3 [R4 R5]]]]]].
  { destruct G0 as [[A [B [C D]]]|G].
    - left. split; auto. split; [rewrite HR2 in B; apply (words_tail _ _ B)|]. split; auto.
      rewrite HR2 in C. apply (ind_tail _ _ _ _ C). intros X.
      destruct E5 as [[Y _]|[[_ [e' Y]]|[Y _]]]; try congruence.
      exists ((if nl then repeat 32 (Z.to_nat n) else []) ++ t). unfold e1. rewrite Y, app_assoc. reflexivity.
    - right. intros X. apply G. rewrite X. reflexivity. }
  rewrite R1. simpl.
  exists (line :: ls), (mkPiece (negb nl) (Z.to_nat s1) t e1 :: ps).
  split; [reflexivity|]. split.
  { simpl. rewrite R2. rewrite HR2. unfold source. simpl. unfold s1. destruct nl; reflexivity. }
  split.
  { simpl. split; [|split; [|split; [auto|split]]].
    - destruct nl; simpl.
      + split; auto. intros x y X. apply (Hs eq_refl x (y ++ tl e)). rewrite E1. transitivity (t ++ e1 ++ tl e); [f_equal; exact HE|].
        rewrite app_assoc, X. reflexivity.
      + split; auto.
    - intros X. destruct e as [|x e'].
      + rewrite ER in HR2. simpl in HR2. rewrite app_nil_r in HR2. unfold source in X. simpl in X.
        unfold s1 in X. destruct nl; simpl in X, HR2; rewrite X in HR2; discriminate.
      + unfold source in X. simpl in X. apply app_eq_nil in X. destruct X as [_ X]. apply app_eq_nil in X. destruct X; discriminate.
    - intros a b X. pose proof (E4 a b X). unfold zlen in H. lia.
    - destruct E5 as [[Y Z0]|[[Y [e' Z0]]|[Y [e' [Z0 W]]]]]; subst e nl'; unfold e1; simpl in *.
      + left. split; auto. destruct ps as [|p ps]; auto. exfalso.
        destruct fuel; simpl in R1; injection R1 as <-; simpl in R4; discriminate.
      + right; left. auto.
      + right; right. split; auto. split; auto. rewrite R2. destruct W as [[W W0]|[W [w [y [W1 [W2 W3]]]]]].
        * left. split; auto. unfold zlen in W. lia.
        * right. split; [unfold zlen in W; lia|]. exists w, y. split; auto. split; auto. unfold zlen in W3. lia. }
  split; [simpl; f_equal; auto|].
  intros [|i] p X; simpl in X |- *.
  - injection X as <-. unfold printed, line, blanks, ch_sp, ch_nl. simpl.
    replace (k + Z.of_nat 0 + 1) with (k + 1) by lia.
    replace (if negb nl then (Z.to_nat s1 + 4)%nat else Z.to_nat s1) with (Z.to_nat (if nl then s1 else s1 + 4))
      by (destruct nl; simpl; lia).
    reflexivity.
  - rewrite (R5 i p X). f_equal. f_equal. f_equal. lia.
Qed.
End Lines.

(* a whole message *)
Lemma message_ok pf l m :
  ((forall i, zlen (pf i) <= 40) /\ Fits m) \/ log_lines (length m) pf l m 0 0 true 0 <> UB ->
  exists ls, log_lines (length m) pf l m 0 0 true 0 = Ok ls /\ Shows (log_prefix pf l) m ls.
Proof.
  intros G. destruct (lines_ok pf l (length m) m 0 0 true 0) as [ls [ps [R1 [R2 [R3 [R4 R5]]]]]]; auto; try lia.
  { destruct G as [[A [B C]]|G]; [left|right; auto]. split; auto. split; auto. split; [|discriminate].
    intros a n b E [[_ X]|X]; apply (C a n b E); auto. }
  exists ls. split; auto. exists ps. split; auto.
Qed.

Section Life.
Context (pf : Z -> Z -> list Z) (f t : Z) (inst : option Z).
Hypothesis FT : f < 0 \/ f <= t.

(* the message buffer holds the text of the user's message, with room for the final 0 *)
Record LInv (s : lstate) (u : user) (n : Z) : Prop := mkLInv {
  li_min : lg_level s = u_min u;
  li_f : lg_from s = f; li_t : lg_to s = t; li_i : lg_inst s = inst;
  li_here : u_here u = here f t inst;
  li_size : lg_size s = 0 \/ 1024 <= lg_size s;
  li_cur : match u_cur u with
           | None => lg_cur s = 0
           | Some (l, m) => lg_cur s = l /\ l <> 0 /\ lg_text s = m /\ zlen m < lg_size s
           end;
  li_n : lg_count s = n }.

Lemma begin_ok s u n l : LInv s u n ->
  exists s' b, log_begin s l = Ok (s', b) /\ LInv s' (u_begin u l) n /\
    (b = false -> u_cur (u_begin u l) = None) /\ lg_text s' = (if b then [] else lg_text s).
Proof.
  intros [I1 I2 I3 I4 I5 I6 I7 I8]. unfold log_begin. rewrite I1, I2, I3, I4.
  assert (NO : forall x, (u_min u <=? l) && here f t inst = false ->
    exists s' b, Ok (set_cur s LL_None, false) = Ok (s', b) /\ LInv s' (u_begin u l) n /\
      (b = false -> u_cur (u_begin u l) = None) /\ lg_text s' = (if b then x else lg_text s)).
  { intros x H. exists (set_cur s LL_None), false. split; auto. unfold u_begin. rewrite I5, H. simpl.
    split; [|auto]. constructor; simpl; auto. }
  assert (YES : (u_min u <=? l) && here f t inst = true ->
    exists s' b, Ok (set_buf (set_cur s l) (if lg_size s =? 0 then 1024 else lg_size s) [], true) = Ok (s', b) /\
      LInv s' (u_begin u l) n /\
      (b = false -> u_cur (u_begin u l) = None) /\ lg_text s' = (if b then [] else lg_text s)).
  { intros H. eexists _, true. split; [reflexivity|]. unfold u_begin. rewrite I5, H. simpl.
    split; [|split; [discriminate|auto]].
    assert (HS : 1024 <= (if lg_size s =? 0 then 1024 else lg_size s)) by (destruct (lg_size s =? 0) eqn:E; lia).
    destruct (l =? 0) eqn:E; constructor; simpl; auto; try lia.
    split; auto. split; [lia|]. split; auto. unfold zlen. simpl. lia. }
  destruct (l <? u_min u) eqn:E1.
  { apply (NO []). destruct (u_min u <=? l) eqn:E; auto. lia. }
  assert (E2 : (u_min u <=? l) = true) by lia. rewrite E2 in NO, YES.
  unfold here in *. destruct inst as [me|]; [|apply YES; auto].
  destruct (0 <=? f) eqn:E3; [|apply YES; simpl; lia].
  destruct (f <=? t) eqn:E4; [|lia]. simpl.
  destruct ((me <? f) || (t <? me)) eqn:E5; [apply (NO [])|apply YES]; simpl; lia.
Qed.

Lemma append_ok s u n m : LInv s u n ->
  (length m < 1024)%nat \/ lg_text s = [] ->
  exists s', log_append s m = Ok s' /\ LInv s' (u_add u m) n.
Proof.
  intros [I1 I2 I3 I4 I5 I6 I7 I8] SM. unfold log_append, u_add.
  destruct (u_cur u) as [[l x]|] eqn:EU.
  - destruct I7 as [J1 [J2 [J3 J4]]]. destruct (lg_cur s =? LL_None) eqn:E; [unfold LL_None in E; lia|].
    rewrite J3. pose proof (zlen_nn x). pose proof (zlen_nn m). destruct (0 <? lg_size s - zlen x) eqn:E1; [|lia]. simpl.
    assert (SM' : zlen m < 1024 \/ zlen x = 0).
    { destruct SM as [SM|SM]; [left; unfold zlen; lia|right]. rewrite <- J3, SM. reflexivity. }
    destruct (lg_size s - zlen x <=? zlen m) eqn:E2.
    + set (size := if 2 * lg_size s <? zlen m + 1 then zlen m + 1 else 2 * lg_size s).
      assert (HS : zlen m + zlen x < size /\ 1024 <= size).
      { unfold size. destruct (2 * lg_size s <? zlen m + 1) eqn:E3; lia. }
      destruct (zlen m <? size - zlen x) eqn:E3; [|lia]. simpl. eexists. split; [reflexivity|].
      constructor; simpl; auto; try lia. repeat split; auto. rewrite zlen_app. lia.
    + eexists. split; [reflexivity|]. constructor; simpl; auto. repeat split; auto. rewrite zlen_app. lia.
  - rewrite I7. simpl. exists s. split; auto. constructor; simpl; auto.
Qed.

(* what a flush prints, and the state afterwards *)
Definition FlushOk (u : user) (n : Z) (r : list (list Z) * outcome lstate) : Prop :=
  match u_msg u with
  | None => fst r = [] /\ exists s', snd r = Ok s' /\ LInv s' (u_done u) n
  | Some (l, m) => Shows (log_prefix (pf n) l) m (fst r) /\
      if l =? 5 then snd r = Panic else exists s', snd r = Ok s' /\ LInv s' (u_done u) (n + 1)
  end.

Definition Good (u : user) : Prop := forall l m, u_msg u = Some (l, m) -> Fits m.

Lemma flush_ok s u n : LInv s u n -> (forall i j, zlen (pf i j) <= 40) -> Good u -> FlushOk u n (log_flush pf s).
Proof.
  intros [I1 I2 I3 I4 I5 I6 I7 I8] P G. unfold FlushOk, log_flush, u_msg, u_done, Good in *.
  destruct (u_cur u) as [[l x]|] eqn:EU; simpl in *.
  - destruct I7 as [J1 [J2 [J3 J4]]]. destruct (lg_cur s =? LL_None) eqn:E; [unfold LL_None in E; lia|].
    rewrite J3, J1, I8. destruct x as [|x m].
    + split; auto. exists s. split; auto. constructor; simpl; auto.
    + destruct (message_ok (pf n) l (x :: m)) as [ls [R1 R2]].
      { left. split; auto. unfold u_msg in G. rewrite EU in G. apply (G l _ eq_refl). }
      rewrite R1. simpl. split; auto. unfold LL_Panic. destruct (l =? 5); auto.
      eexists. split; [reflexivity|]. constructor; simpl; auto; try congruence.
      repeat split; auto. unfold zlen in *. simpl in *. lia.
  - rewrite I7. simpl. split; auto. exists s. split; auto. constructor; simpl; auto.
Qed.

Lemma log_ok s u n l m : LInv s u n -> (forall i j, zlen (pf i j) <= 40) -> Good (u_add (u_begin u l) m) ->
  FlushOk (u_add (u_begin u l) m) n (log_log pf s l m).
Proof.
  intros I P G. destruct (begin_ok s u n l I) as [s' [b [R1 [R2 [R3 R4]]]]]. unfold log_log. rewrite R1.
  destruct b.
  - destruct (append_ok s' (u_begin u l) n m R2 ltac:(right; exact R4)) as [s2 [A1 A2]]. rewrite A1. apply flush_ok; auto.
  - specialize (R3 eq_refl). unfold FlushOk, u_msg, u_done, u_add. rewrite R3. simpl. split; auto.
    exists s'. split; auto. destruct R2 as [I1 I2 I3 I4 I5 I6 I7 I8]. rewrite R3 in I7. constructor; simpl; auto.
Qed.

Lemma life_ok : (forall i j, zlen (pf i j) <= 40) -> forall cs s u n, 0 <= n -> LInv s u n -> Forall SmallCall cs ->
  (forall l m, In (l, m) (u_life u cs) -> Fits m) ->
  exists oss, fst (llife pf s cs) = concat oss /\ length oss = length (u_life u cs) /\
    (forall i l m, nth_error (u_life u cs) i = Some (l, m) ->
      exists ls, nth_error oss i = Some ls /\ Shows (log_prefix (pf (n + Z.of_nat i)) l) m ls) /\
    if existsb (fun p => fst p =? 5) (u_life u cs) then snd (llife pf s cs) = Panic
    else exists s', snd (llife pf s cs) = Ok s'.
Proof.
  intros P. induction cs as [|c cs IH]; intros s u n N I SC F.
  { exists []. simpl. split; auto. split; auto. split; [intros [|i] l m X; discriminate|eauto]. }
  inversion SC as [|? ? C1 C2]; subst.
  (* a call which prints nothing *)
  assert (QUIET : forall u', u_step u c = (None, u') -> (exists s', lstep pf s c = ([], Ok s') /\ LInv s' u' n) ->
    exists oss, fst (llife pf s (c :: cs)) = concat oss /\ length oss = length (u_life u (c :: cs)) /\
    (forall i l m, nth_error (u_life u (c :: cs)) i = Some (l, m) ->
      exists ls, nth_error oss i = Some ls /\ Shows (log_prefix (pf (n + Z.of_nat i)) l) m ls) /\
    if existsb (fun p => fst p =? 5) (u_life u (c :: cs)) then snd (llife pf s (c :: cs)) = Panic
    else exists s', snd (llife pf s (c :: cs)) = Ok s').
  { intros u' E [s' [E1 E2]]. simpl in F |- *. rewrite E in *. rewrite E1.
    destruct (IH s' u' n N E2 C2 F) as [oss R]. exists oss. destruct (llife pf s' cs) as [o y]. exact R. }
  (* a flush *)
  assert (FL : forall u2, u_step u c = (u_msg u2, u_done u2) -> (Good u2 -> FlushOk u2 n (lstep pf s c)) ->
    exists oss, fst (llife pf s (c :: cs)) = concat oss /\ length oss = length (u_life u (c :: cs)) /\
    (forall i l m, nth_error (u_life u (c :: cs)) i = Some (l, m) ->
      exists ls, nth_error oss i = Some ls /\ Shows (log_prefix (pf (n + Z.of_nat i)) l) m ls) /\
    if existsb (fun p => fst p =? 5) (u_life u (c :: cs)) then snd (llife pf s (c :: cs)) = Panic
    else exists s', snd (llife pf s (c :: cs)) = Ok s').
  { intros u2 E H. assert (G2 : Good u2).
    { intros l m X. apply (F l m). simpl. rewrite E, X. left. auto. }
    specialize (H G2). unfold FlushOk in H. destruct (u_msg u2) as [[l m]|] eqn:EM.
    - destruct H as [H1 H2]. simpl in F |- *. rewrite E in *. destruct (lstep pf s c) as [o x]. simpl in H1, H2.
      destruct (l =? 5) eqn:E5.
      + subst x. exists [o]. simpl. rewrite app_nil_r, E5. simpl. split; auto. split; auto. split; auto.
        intros [|i] l' m' X; simpl in X; [|destruct i; discriminate]. injection X as <- <-. exists o. split; auto.
        replace (n + Z.of_nat 0) with n by lia. auto.
      + destruct H2 as [s' [-> H3]]. destruct (IH s' (u_done u2) (n + 1) ltac:(lia) H3 C2) as [oss [R1 [R2 [R3 R4]]]].
        { intros l' m' X. apply (F l' m'). right. auto. }
        destruct (llife pf s' cs) as [o' y]. simpl in *. exists (o :: oss). simpl. rewrite E5, R1. simpl.
        split; auto. split; auto. split; auto.
        intros [|i] l' m' X; simpl in X.
        * injection X as <- <-. exists o. split; auto. replace (n + Z.of_nat 0) with n by lia. auto.
        * destruct (R3 i l' m' X) as [ls [Y1 Y2]]. exists ls. split; auto.
          replace (n + Z.of_nat (S i)) with (n + 1 + Z.of_nat i) by lia. auto.
    - destruct H as [H1 [s' [H2 H3]]]. apply (QUIET (u_done u2)); auto. exists s'. split; auto.
      destruct (lstep pf s c) as [o x]. simpl in *. congruence. }
  destruct c as [l|m|[m|]|l m|m|l]; simpl in C1.
  - apply (QUIET (u_begin u l) eq_refl). destruct (begin_ok s u n l I) as [s' [b [R1 [R2 _]]]].
    exists s'. simpl. rewrite R1. auto.
  - apply (QUIET (u_add u m) eq_refl). destruct (append_ok s u n m I (or_introl C1)) as [s' [R1 R2]].
    exists s'. simpl. rewrite R1. auto.
  - apply (FL (u_add u m) eq_refl). intros G. destruct (append_ok s u n m I (or_introl C1)) as [s' [R1 R2]].
    simpl. rewrite R1. apply flush_ok; auto.
  - apply (FL u eq_refl). intros G. apply flush_ok; auto.
  - apply (FL (u_add (u_begin u l) m) eq_refl). intros G. apply log_ok; auto.
  - apply (FL (u_add (u_begin u 5) m) eq_refl). intros G. apply log_ok; auto.
  - apply (QUIET (mkUser l (u_here u) (u_cur u)) eq_refl). eexists. split; [reflexivity|].
    destruct I as [I1 I2 I3 I4 I5 I6 I7 I8]. constructor; simpl; auto.
Qed.
End Life.

(* the layout of a message is unique *)
Lemma app_cases {A} (a b c d : list A) : a ++ b = c ++ d ->
  (a = c /\ b = d) \/ (exists x y, c = a ++ x :: y /\ b = x :: y ++ d) \/ (exists x y, a = c ++ x :: y /\ d = x :: y ++ b).
Proof.
  revert c. induction a as [|z a IH]; intros [|u c] E; simpl in E.
  - auto.
  - right; left. exists u, c. auto.
  - right; right. exists z, a. auto.
  - injection E as -> E. destruct (IH c E) as [[-> ->]|[[x [y [-> ->]]]|[x [y [-> ->]]]]]; auto.
    + right; left. exists x, y. auto.
    + right; right. exists x, y. auto.
Qed.

(* the condition on one line, from its indentation on; [R]: the rest of the message *)
Definition LineOk (i : nat) (t e R : list Z) : Prop :=
  ~ In 10 t /\ (forall a b, t = a ++ 32 :: b -> (i + length a <= 100)%nat) /\
  ((e = [] /\ R = []) \/ e = [10] \/
   (e = [32] /\ (((i + length t > 100)%nat /\ ~ In 32 t) \/
     (i + length t <= 100)%nat /\ exists w y, R = w ++ 32 :: y /\ NoBlank w /\ (i + length t + 1 + length w > 100)%nat))).

Lemma line_short i t1 e1 R1 t2 e2 R2 x y : LineOk i t1 e1 R1 -> LineOk i t2 e2 R2 ->
  t2 = t1 ++ x :: y -> e1 ++ R1 = x :: y ++ e2 ++ R2 -> False.
Proof.
  intros [A1 [A2 A3]] [B1 [B2 B3]] E F.
  destruct A3 as [[-> ->]|[->|[-> A3]]]; [discriminate| |]; simpl in F; injection F as <- F.
  { apply B1. rewrite E. apply in_or_app. right. left. auto. }
  pose proof (B2 _ _ E) as W. destruct A3 as [[A3 _]|[_ [w [z [A4 [A5 A6]]]]]]; [lia|].
  rewrite A4 in F. destruct (app_cases _ _ _ _ F) as [[G1 G2]|[[u [v [G1 G2]]]|[u [v [G1 G2]]]]].
  - subst y. destruct B3 as [[-> ->]|[->|[-> B3]]]; try discriminate.
    destruct B3 as [[_ B3]|[B3 _]].
    + apply B3. rewrite E. apply in_or_app. right. left. auto.
    + rewrite E, app_length in B3. simpl in B3. lia.
  - subst y. injection G2 as <- G2.
    assert (B4 : t2 = (t1 ++ 32 :: w) ++ 32 :: v) by (rewrite E, <- app_assoc; reflexivity).
    apply B2 in B4. rewrite app_length in B4. simpl in B4. lia.
  - destruct A5 as [A5 A7]. assert (X : In u w) by (rewrite G1; apply in_or_app; right; left; auto).
    destruct B3 as [[-> ->]|[->|[-> _]]]; try discriminate; simpl in G2; injection G2 as <- G2; auto.
Qed.

Lemma line_unique i t1 e1 R1 t2 e2 R2 : LineOk i t1 e1 R1 -> LineOk i t2 e2 R2 ->
  t1 ++ e1 ++ R1 = t2 ++ e2 ++ R2 -> t1 = t2 /\ e1 = e2 /\ R1 = R2.
Proof.
  intros H1 H2 E. destruct (app_cases _ _ _ _ E) as [[-> G]|[[x [y [G1 G2]]]|[x [y [G1 G2]]]]].
  - split; auto. destruct H1 as [_ [_ H1]], H2 as [_ [_ H2]].
    destruct H1 as [[-> ->]|[->|[-> _]]], H2 as [[-> ->]|[->|[-> _]]]; simpl in G; try discriminate; auto;
      injection G as ->; auto.
  - exfalso. eapply (line_short i t1 e1 R1 t2 e2 R2); eauto.
  - exfalso. eapply (line_short i t2 e2 R2 t1 e1 R1); eauto.
Qed.

Lemma laid_lineok c p r : Laid c (p :: r) -> LineOk (pc_ind p) (pc_text p) (pc_end p) (concat (map source r)).
Proof.
  simpl. intros [_ [_ [A [B C]]]]. split; auto. split; auto.
  destruct C as [[C ->]|[[C _]|[C [_ D]]]]; auto.
Qed.

Lemma indent_unique n1 n2 a b : repeat 32 n1 ++ a = repeat 32 n2 ++ b ->
  (forall x t, a = x :: t -> x <> 32) -> (forall x t, b = x :: t -> x <> 32) -> n1 = n2 /\ a = b.
Proof.
  revert n2. induction n1 as [|n1 IH]; intros [|n2] E A B; simpl in E; auto.
  - exfalso. apply (A 32 (repeat 32 n2 ++ b)); auto.
  - exfalso. apply (B 32 (repeat 32 n1 ++ a)); auto.
  - injection E as E. destruct (IH n2 E A B). subst. auto.
Qed.

Lemma head_app {A} (t e R : list A) (P : A -> Prop) : t ++ e <> [] -> (forall x y, t ++ e = x :: y -> P x) ->
  forall x y, t ++ e ++ R = x :: y -> P x.
Proof.
  intros N H x y E. rewrite app_assoc in E. destruct (t ++ e) as [|z q]; [congruence|]. injection E as <- _. eapply H; eauto.
Qed.

Lemma laid_unique ps : forall c qs, Laid c ps -> Laid c qs -> concat (map source ps) = concat (map source qs) -> ps = qs.
Proof.
  induction ps as [|p ps IH]; intros c [|q qs] LP LQ E; auto.
  - exfalso. simpl in E, LQ. destruct LQ as [_ [N _]]. apply N. symmetry in E. apply app_eq_nil in E. tauto.
  - exfalso. simpl in E, LP. destruct LP as [_ [N _]]. apply N. apply app_eq_nil in E. tauto.
  - pose proof (laid_lineok _ _ _ LP) as KP. pose proof (laid_lineok _ _ _ LQ) as KQ.
    assert (X : pc_cont p = pc_cont q /\ pc_ind p = pc_ind q /\
      pc_text p ++ pc_end p ++ concat (map source ps) = pc_text q ++ pc_end q ++ concat (map source qs)).
    { simpl in LP, LQ, E. destruct LP as [LP [NP [_ [_ TP]]]], LQ as [LQ [NQ [_ [_ TQ]]]].
      unfold source in E at 1 3. rewrite <- !app_assoc in E.
      destruct c as [n|].
      - destruct LP as [P1 P2], LQ as [Q1 Q2]. rewrite P1, Q1 in *. simpl in E. repeat split; auto. congruence.
      - destruct LP as [P1 P2], LQ as [Q1 Q2]. rewrite P1, Q1 in *. split; auto.
        apply indent_unique; auto.
        + intros x t H. destruct TP as [[T1 T2]|[[T1 _]|[T1 _]]].
          * subst ps. simpl in H. rewrite app_nil_r in H. eapply P2; eauto.
          * eapply (head_app _ _ _ (fun x => x <> 32)); [| exact P2 | exact H]. rewrite T1. intros Y. apply app_eq_nil in Y. destruct Y; discriminate.
          * eapply (head_app _ _ _ (fun x => x <> 32)); [| exact P2 | exact H]. rewrite T1. intros Y. apply app_eq_nil in Y. destruct Y; discriminate.
        + intros x t H. destruct TQ as [[T1 T2]|[[T1 _]|[T1 _]]].
          * subst qs. simpl in H. rewrite app_nil_r in H. eapply Q2; eauto.
          * eapply (head_app _ _ _ (fun x => x <> 32)); [| exact Q2 | exact H]. rewrite T1. intros Y. apply app_eq_nil in Y. destruct Y; discriminate.
          * eapply (head_app _ _ _ (fun x => x <> 32)); [| exact Q2 | exact H]. rewrite T1. intros Y. apply app_eq_nil in Y. destruct Y; discriminate. }
    destruct X as [X1 [X2 X3]]. rewrite X2 in KP.
    destruct (line_unique _ _ _ _ _ _ _ KP KQ X3) as [Y1 [Y2 Y3]].
    assert (EP : p = q) by (destruct p, q; simpl in *; congruence). subst q. f_equal.
    simpl in LP, LQ. destruct LP as [_ [_ [_ [_ TP]]]], LQ as [_ [_ [_ [_ TQ]]]].
    destruct TP as [[T1 T2]|[[T1 T2]|[T1 [T2 _]]]], TQ as [[S1 S2]|[[S1 S2]|[S1 [S2 _]]]]; try congruence;
      eapply IH; eauto.
Qed.

Lemma shows_unique pre m a b : Shows pre m a -> Shows pre m b -> a = b.
Proof.
  intros [ps [P1 [P2 [P3 P4]]]] [qs [Q1 [Q2 [Q3 Q4]]]].
  assert (ps = qs) by (eapply laid_unique; eauto; congruence). subst qs.
  apply nth_ext with (d := []) (d' := []); [congruence|]. intros i H.
  destruct (nth_error ps i) as [p|] eqn:E; [|apply nth_error_None in E; lia].
  pose proof (P4 i p E) as A. pose proof (Q4 i p E) as B.
  rewrite (nth_error_nth _ _ [] A), (nth_error_nth _ _ [] B). reflexivity.
Qed.
