(* Properties C51 and C52: byte streams of the TCP2 backend *)
From Coq Require Import ZArith List Bool Lia ZifyBool ZifyNat.
From Verif Require Import Base ListFacts Model_Space Model_RangeList Model_Mem Model_Layout Model_Transition Model_KVS Model_SpaceStore Model_Tcp2
  Spec_Space Spec_Type Spec_Layout Spec_SpaceStore Spec_Tcp2 Proof_Space Proof_Type Proof_RangeList5 Proof_Layout Proof_Layout2 Proof_Layout3 Proof_Layout4 Proof_Layout5 Proof_Layout6
  Proof_SpaceStore Proof_Tcp2 Proof_Tcp3 Proof_Tcp4 Proof_Tcp5 Prop_Layout.
Import ListNotations.
Open Scope Z_scope.

(* ---------- C51: framing ---------- *)

Lemma start_partial its : Partial (zlen (@nil Z)) (pevents (PI its)).
Proof.
  cbn [pevents]. destruct (events its) as [|e0 l0] eqn:Eev; cbn; auto. change (zlen (@nil Z)) with 0. split; [lia|].
  destruct its as [|[c|es0 els] its]; cbn in Eev; [discriminate| |]; injection Eev as <- <-; cbn; [pose proof (zlen_nonneg c); lia|lia].
Qed.

(* Whatever the pieces in which the bytes of commands and frames arrive, and whatever the program
   does in between (as long as it lets a started receive alone): the commands and elements handled
   are those sent, each once and in order, and after each read exactly those are handled which were
   read completely. Each read makes progress, and no bytes are lost: they are read or waiting. *)
Theorem C51_framing : forall rd X other its steps, Forall ItemOk its -> Forall (fun st => Calm X (snd st)) steps ->
  exists ks, ReadsOk X (zlen (stream its)) 0 0 steps ks /\
  forall s s', handle rd X other (events its) 0 s (combine ks (map snd steps)) = Ok s' ->
  exists f w r, receive rd X other s (mkFd [] 0) [] (stream its) steps = Ok (s', f, w, r) /\
    zsum ks + zlen w + zlen r = zlen (stream its) /\ (w = [] -> r = [] -> f = mkFd [] 0).
Proof.
  intros rd X other its steps HI HC.
  destruct (recv_run rd X other (events its) steps (PI its) [] [] (stream its) [] HC HI eq_refl eq_refl (start_partial its) (Forall_nil _)) as (ks & R1 & R2).
  change (size []) with 0 in R1, R2. change (zlen (@nil Z)) with 0 in R1, R2. change (0 + 0) with 0 in R1, R2.
  rewrite size_events in R1 by auto. replace (zlen (stream its) - zlen (stream its)) with 0 in R1 by lia.
  exists ks. split; auto. intros s s' H. destruct (R2 s I s' H) as (f & w & r & A & B & C). exists f, w, r. conjs; auto.
Qed.

(* The result is the same for all ways in which bytes arrive *)
Theorem C51_any_split : forall rd X other its (ns ms : list nat) s s', Forall ItemOk its ->
  zlen (stream its) <= zsum (map Z.of_nat ns) -> zlen (stream its) <= zlen ms ->
  apply_events rd X other s (map fst (events its)) = Ok s' ->
  receive rd X other s (mkFd [] 0) [] (stream its) (map (fun n => (n, fun s => s)) (ns ++ ms)) = Ok (s', mkFd [] 0, [], []).
Proof.
  intros rd X other its ns ms s s' HI H1 H2 HA. set (steps := map (fun n => (n, fun s : pstate X => s)) (ns ++ ms)).
  assert (HC : Forall (fun st => Calm X (snd st)) steps). { unfold steps. rewrite Forall_map. apply Forall_forall. intros n _ es s0. auto. }
  destruct (C51_framing rd X other its steps HI HC) as (ks & R1 & R2).
  destruct (reads_facts X (zlen (stream its)) steps 0 0 ks ltac:(lia) (zlen_nonneg _) R1) as (K1 & K2 & K3).
  assert (RA : 0 + zsum ks = zlen (stream its)).
  { unfold steps in R1. rewrite map_app in R1. eapply (reads_all X _ _ _ 0 0 ks); [lia|apply zlen_nonneg|exact R1| |].
    - unfold arrivals. rewrite map_map. cbn [fst]. exact H1.
    - unfold zlen in *. rewrite map_length. lia. }
  assert (C0 : complete 0 (events its) = []). { apply (complete_split [] (events its) 0 (Forall_nil _)). change (size []) with 0. exact (start_partial its). }
  destruct (handle_keeps rd X other (fun l s0 => apply_events rd X other s0 l = Ok s')) with (evs := events its) (ks := ks) (gs := map snd steps) (done := 0) (s := s) as (s1 & S1 & S2); auto.
  - intros ev l s0 H. unfold apply_events in H. cbn [ofold] in H. apply obind_ok in H. exact H.
  - intros g l s0 Hg. apply in_map_iff in Hg. destruct Hg as (st & <- & Hst). unfold steps in Hst. apply in_map_iff in Hst. destruct Hst as (n & <- & _). auto.
  - rewrite map_length. auto.
  - rewrite C0. exact HA.
  - rewrite complete_all in S2 by (rewrite ?size_events by auto; try lia; apply events_nonneg). rewrite map_length, skipn_all2 in S2 by (rewrite map_length; lia).
    cbn in S2. injection S2 as ->. destruct (R2 s s' S1) as (f & w & r & A1 & A2 & A3).
    pose proof (zlen_nonneg w). pose proof (zlen_nonneg r).
    assert (w = []) by (destruct w; auto; rewrite zlen_cons in *; pose proof (zlen_nonneg w); lia).
    assert (r = []) by (destruct r; auto; rewrite zlen_cons in *; pose proof (zlen_nonneg r); lia). subst.
    rewrite A3 in A1 by auto. exact A1.
Qed.

(* Commands which do not fit into the receive buffer end the program *)
Lemma rb_plain rd X other : forall rest pend fuel s, (length rest <= fuel)%nat -> (hd 0 (pend ++ rest) =? 66) = false -> Forall (fun x => x <> 4 /\ x <> 10 /\ x <> 13) rest ->
  rb_loop rd X other fuel s 0 pend rest = Ok (s, mkFd (pend ++ rest) 0).
Proof.
  induction rest as [|c r IH]; intros pend fuel s Hf Hh HF.
  - destruct fuel; cbn [rb_loop]; rewrite app_nil_r; reflexivity.
  - destruct fuel as [|fuel]; [cbn in Hf; lia|]. cbn [rb_loop]. change (0 >? 0) with false. rewrite Hh. inversion HF as [|? ? F1 F2]; subst.
    replace (c =? 4) with false by lia. replace (c =? 13) with false by lia. replace (c =? 10) with false by lia.
    rewrite IH; [rewrite <- app_assoc; reflexivity|cbn in Hf; lia|rewrite <- app_assoc; exact Hh|auto].
Qed.

(* Carriage returns in a command (telnet) become blanks, in whatever pieces the command arrives: a
   part [l] after [k] without the line end stays in the buffer, and the line end completes it *)
Definition blanked (l : list Z) : list Z := map (fun x => if x =? 13 then 32 else x) l.
Lemma rb_blanked rd X other : forall rest pend fuel s tail, (length (rest ++ tail) <= fuel)%nat -> hd 0 (pend ++ rest ++ tail) <> 66 -> Forall (fun x => x <> 4 /\ x <> 10) rest ->
  exists fuel', (length tail <= fuel')%nat /\ rb_loop rd X other fuel s 0 pend (rest ++ tail) = rb_loop rd X other fuel' s 0 (pend ++ blanked rest) tail /\ hd 0 (pend ++ blanked rest ++ tail) <> 66.
Proof.
  induction rest as [|c r IH]; intros pend fuel s tail Hf Hh HF.
  - exists fuel. cbn [blanked map app] in *. rewrite app_nil_r. auto.
  - destruct fuel as [|fuel]; [cbn in Hf; lia|]. inversion HF as [|? ? F1 F2]; subst. cbn [app] in *.
    set (c' := if c =? 13 then 32 else c).
    destruct (IH (pend ++ [c']) fuel s tail) as (fuel' & A1 & A2 & A3); [cbn in Hf; lia| |auto|].
    { rewrite <- app_assoc. destruct pend as [|p0 pend]; cbn [app hd] in *; unfold c'; destruct (c =? 13); lia. }
    exists fuel'. split; auto. rewrite <- !app_assoc in *. cbn [blanked map app] in *. fold (blanked r). fold c'. split; [|exact A3]. rewrite <- A2.
    cbn [rb_loop]. change (0 >? 0) with false. replace (hd 0 (pend ++ c :: r ++ tail) =? 66) with false by lia. replace (c =? 4) with false by lia.
    unfold c'. destruct (c =? 13) eqn:E; [reflexivity|]. replace (c =? 10) with false by lia. reflexivity.
Qed.
Theorem C51_carriage_return : forall rd X other s k l, Forall (fun x => x <> 4 /\ x <> 10) (k ++ l) -> hd 0 (k ++ l ++ [10]) <> 66 -> zlen (k ++ l) < 8192 ->
  got_bytes rd X other s (mkFd (blanked k) 0) l = Ok (s, mkFd (blanked (k ++ l)) 0, []) /\
  got_bytes rd X other s (mkFd (blanked k) 0) (l ++ [10]) = (do s' <- got_cmd rd X other s (blanked (k ++ l)); Ok (s', mkFd [] 0, [])).
Proof.
  intros rd X other s k l HF Hh Hl. apply Forall_app in HF. destruct HF as [F1 F2].
  assert (Lb : forall x, length (blanked x) = length x) by (intros; apply map_length).
  assert (Bb : forall x, blanked (blanked x) = blanked x). { intros x. unfold blanked. rewrite map_map. apply map_ext. intros c. destruct (c =? 13) eqn:E; [reflexivity|rewrite E; reflexivity]. }
  assert (Ba : forall x y, blanked (x ++ y) = blanked x ++ blanked y) by (intros; apply map_app).
  assert (F3 : Forall (fun x => x <> 4 /\ x <> 10) (blanked k ++ l)).
  { apply Forall_app. split; auto. unfold blanked. rewrite Forall_map. eapply Forall_impl; [|exact F1]. cbn beta. intros c Hc. destruct (c =? 13); lia. }
  assert (H1 : hd 0 ((blanked k ++ l) ++ [10]) <> 66). { destruct k as [|c k]; [exact Hh|]. cbn in *. destruct (c =? 13); lia. }
  assert (Z1 : zlen (blanked k) = zlen k) by (unfold zlen; rewrite Lb; reflexivity). rewrite zlen_app in Hl. pose proof (zlen_nonneg l). pose proof (zlen_nonneg k).
  unfold got_bytes. cbn [fd_rbuf fd_bin]. rewrite Z1. unfold rbuf_len. change (8 * 1024) with 8192. replace (zlen k =? 8192) with false by lia.
  rewrite !firstn_all2, !skipn_all2 by (rewrite ?app_length; unfold zlen in *; cbn; lia). unfold process_rbuf. cbn [fd_rbuf fd_bin]. split.
  - destruct (rb_blanked rd X other (blanked k ++ l) [] (length (blanked k ++ l)) s []) as (fu & A1 & A2 & A3); [rewrite app_nil_r; lia| |exact F3|].
    { cbn [app]. rewrite app_nil_r. destruct (blanked k ++ l); [cbn; lia|exact H1]. }
    rewrite app_nil_r in A2. rewrite A2. destruct fu; cbn [rb_loop obind app]; rewrite !Ba, Bb; reflexivity.
  - rewrite app_assoc. destruct (rb_blanked rd X other (blanked k ++ l) [] (length ((blanked k ++ l) ++ [10])) s [10]) as (fu & A1 & A2 & A3); [lia|exact H1|exact F3|].
    rewrite A2. destruct fu as [|fu]; [cbn in A1; lia|]. cbn [rb_loop app] in *. change (0 >? 0) with false. cbn iota.
    replace (hd 0 (blanked (blanked k ++ l) ++ [10]) =? 66) with false by lia. change (10 =? 4) with false. change (10 =? 13) with false. change (10 =? 10) with true. cbn iota.
    rewrite !Ba, Bb. destruct (got_cmd rd X other s (blanked k ++ blanked l)); cbn [obind]; try reflexivity. destruct fu; reflexivity.
Qed.
Example C51_cr_example : Forall (fun x => x <> 4 /\ x <> 10) ([104; 101; 108] ++ [112; 13]) /\ blanked ([104; 101; 108] ++ [112; 13]) = [104; 101; 108; 112; 32].
Proof. split; [repeat constructor; lia|reflexivity]. Qed.

Lemma receive_step rd X other s f wait rest n g l : wait ++ firstn n rest <> [] ->
  receive rd X other s f wait rest ((n, g) :: l) =
  (do r <- got_bytes rd X other s f (wait ++ firstn n rest); receive rd X other (g (fst (fst r))) (snd (fst r)) (snd r) (skipn n rest) l).
Proof. intros H. cbn [receive]. destruct (wait ++ firstn n rest); [congruence|reflexivity]. Qed.

Theorem C51_long_command_refuted : forall rd X other s c, 8192 <= zlen c -> hd 0 c <> 66 -> Forall (fun x => x <> 4 /\ x <> 10 /\ x <> 13) c ->
  receive rd X other s (mkFd [] 0) [] (stream [ICmd c]) [(length c + 1, fun s => s); (0, fun s => s)]%nat = Panic.
Proof.
  intros rd X other s c Hc Hh HF. unfold stream. cbn [flat_map item_bytes]. rewrite app_nil_r.
  rewrite receive_step by (cbn [app]; rewrite firstn_all2 by (rewrite app_length; cbn; lia); destruct c; discriminate). cbn [app].
  rewrite firstn_all2 by (rewrite app_length; cbn; lia). rewrite skipn_all2 by (rewrite app_length; cbn; lia).
  unfold got_bytes at 1. cbn [fd_rbuf fd_bin app]. change (zlen (@nil Z) =? rbuf_len) with false. cbn iota.
  set (n := Z.to_nat (rbuf_len - zlen (@nil Z))). assert (Hn : n = Z.to_nat 8192) by reflexivity. clearbody n.
  assert (Hle : (n <= length c)%nat) by (unfold zlen in Hc; lia).
  rewrite firstn_app. replace (n - length c)%nat with 0%nat by lia. rewrite firstn_O, app_nil_r. rewrite skipn_app. replace (n - length c)%nat with 0%nat by lia. cbn [skipn].
  unfold process_rbuf. cbn [fd_rbuf fd_bin]. rewrite rb_plain; [|lia| |].
  - cbn [obind fst snd app]. rewrite receive_step by (destruct (skipn n c); discriminate).
    unfold got_bytes. cbn [fd_rbuf]. rewrite zlen_firstn by lia. rewrite Hn. change (Z.of_nat (Z.to_nat 8192) =? rbuf_len) with true. reflexivity.
  - cbn [app]. destruct c as [|c0 c]; [cbn in Hle; lia|]. destruct n; [lia|]. cbn in *. lia.
  - rewrite <- (firstn_skipn n c) in HF. apply Forall_app in HF. tauto.
Qed.

(* an example: two commands and a frame of two elements of two bytes, arriving in pieces *)
Definition x_sum (o : redop) (a b : list Z) : outcome (list Z) := Ok (map (fun p => (fst p + snd p) mod 256) (combine a b)).
Definition x_other (l : list (list Z)) (c : list Z) : outcome (list (list Z)) := Ok (l ++ [c]).
Definition x_items := [ICmd [107; 49]; IFrame 2 [[1; 2]; [10; 3]]; ICmd [107; 50]].
Definition x_recv := mkRp 2 0 2 (Some (xmp 0 xb1 100)) xsp (mkBox (mkIdx 1 0 0) (mkIdx 3 1 0)) (mkIdx 1 0 0) RO_Sum.
Example C51_example : Forall ItemOk x_items /\ zlen (stream x_items) = 13 /\
  exists s, apply_events x_sum _ x_other ([], x_recv, xmem) (map fst (events x_items)) = Ok s /\ fst (fst s) = [[107; 49]; [107; 50]] /\
    mread (snd s) 102 4 = [103; 105; 114; 108] /\
    receive x_sum _ x_other ([], x_recv, xmem) (mkFd [] 0) [] (stream x_items) (map (fun n => (n, fun s => s)) ([4; 3; 1; 0; 5] ++ repeat 0 13)%nat) = Ok (s, mkFd [] 0, [], []).
Proof.
  assert (HI : Forall ItemOk x_items) by (repeat constructor; cbn; lia).
  split; auto. split; [reflexivity|].
  destruct (apply_events x_sum _ x_other ([], x_recv, xmem) (map fst (events x_items))) as [s| | | |] eqn:E; try (vm_compute in E; discriminate).
  exists s. split; [reflexivity|]. split; [|split].
  - vm_compute in E. injection E as <-. reflexivity.
  - vm_compute in E. injection E as <-. reflexivity.
  - apply C51_any_split; auto; vm_compute; discriminate.
Qed.

(* ---------- C52: transfer of a range ---------- *)

(* Permission to send is for the number and size of the elements of the receive *)
Theorem C52_permission : forall n es r, 0 <= n < 2 ^ 31 -> 0 <= es < 2 ^ 31 ->
  allow_cmd n es = item_bytes (ICmd (removelast (allow_cmd n es))) /\ ItemOk (ICmd (removelast (allow_cmd n es))) /\
  got_allowsend (0, r) (removelast (allow_cmd n es)) = (n, es) /\
  (* a permission which is not used yet is kept *)
  (forall c, c <> 0 -> got_allowsend (c, r) (removelast (allow_cmd n es)) = (c, r)).
Proof.
  intros n es r Hn He. set (c := [97; 108; 108; 111; 119; 115; 101; 110; 100; 32] ++ print_dec n ++ [32] ++ print_dec es).
  assert (E : allow_cmd n es = c ++ [10]) by (unfold allow_cmd, c; rewrite <- !app_assoc; reflexivity).
  rewrite E, removelast_last. split; [reflexivity|]. split.
  - cbn [ItemOk]. conjs.
    + unfold c. rewrite !zlen_app. pose proof (print_small n Hn). pose proof (print_small es He). change (zlen [97; 108; 108; 111; 119; 115; 101; 110; 100; 32]) with 10. change (zlen [32]) with 1. lia.
    + discriminate.
    + assert (P : forall z, 0 <= z -> Forall (fun x => x <> 4 /\ x <> 10 /\ x <> 13) (print_dec z)) by (intros z Hz; eapply Forall_impl; [|apply (print_dec_range z Hz)]; cbn beta; intros; lia).
      assert (K : forall l, Forall (fun c => 13 <? c = true) l -> Forall (fun x => x <> 4 /\ x <> 10 /\ x <> 13) l) by (intros l Hl; eapply Forall_impl; [|exact Hl]; cbn beta; intros; lia).
      unfold c. rewrite !Forall_app. conjs; try (apply P; lia); apply K; repeat constructor.
  - enough (GA : forall c0, got_allowsend (c0, r) c = if negb (c0 =? 0) then (c0, r) else (n, es)).
    { split; [apply GA|]. intros c0 H0. rewrite GA. replace (c0 =? 0) with false by lia. reflexivity. }
    intros c0. unfold got_allowsend.
    assert (SW : scan_word 20 c = Some ([97; 108; 108; 111; 119; 115; 101; 110; 100], 32 :: print_dec n ++ 32 :: print_dec es)).
    { unfold c, scan_word. cbn [app skip_space]. change (is_space 97) with false. cbn iota.
      repeat (cbn [take_word]; match goal with |- context [is_space ?z] => let v := eval vm_compute in (is_space z) in change (is_space z) with v; cbn iota end). reflexivity. }
    rewrite SW. cbn iota.
    change (scan_dec (32 :: print_dec n ++ 32 :: print_dec es)) with (scan_dec (print_dec n ++ 32 :: print_dec es)).
    assert (I64 : forall z, 0 <= z < 2 ^ 31 -> Int64 z) by (intros z Hz; unfold Int64; change (2 ^ 31) with 2147483648 in Hz; change (2 ^ 63) with 9223372036854775808; lia).
    rewrite scan_print by (auto; reflexivity). cbn iota.
    change (scan_dec (32 :: print_dec es)) with (scan_dec (print_dec es)). rewrite <- (app_nil_r (print_dec es)), scan_print by (auto; exact I). reflexivity.
Qed.

(* Data for which no receive was started, or which arrives after all elements of the receive, is
   ignored: memory and the state of the receive are not changed *)
Theorem C52_late_data : forall rd p m, pr_count p = 0 \/ pr_off p = pr_count p ->
  (forall buf, got_binary_data rd p m buf = Ok (p, m, zlen buf)) /\ (forall msg, got_data rd p m msg = Ok (p, m)).
Proof.
  intros rd p m H. assert (W : waiting p = false) by (unfold waiting; lia). split; [intros buf; unfold got_binary_data|intros msg; unfold got_data]; rewrite W; cbn [negb]; auto.
  destruct (scan_word 20 msg) as [[? l1]|]; auto. destruct (scan_dec l1) as [[? ?]|]; auto.
Qed.

(* Transfer of a range from a mapping of one process into a mapping of another, in binary and text
   mode: in whatever pieces bytes arrive, the receive ends exactly when all of them were read, each
   index of the range then has the value of the sender (or the reduction of the value before with
   it), and other memory of the receiver is unchanged. *)
Theorem C52_transfer : forall rd X other bin lid sp b n mps Bs Ns mpr Br Nr ms ro x p0 m0 p bytes steps,
  valid_dims (sp_dims sp) -> NonEmpty (sp_dims sp) b -> HasCount (sp_dims sp) b n -> n < 2 ^ 31 ->
  GoodMap sp mps Bs Ns -> SubBox (sp_dims sp) b Bs -> GoodMap sp mpr Br Nr -> SubBox (sp_dims sp) b Br ->
  lm_es mps = lm_es mpr -> (bin = true -> lm_es mpr <= 8189) -> 0 <= lid -> Bytes ms ->
  recv_start sp b mpr ro p0 = Ok p -> send_range bin lid sp b mps ms (pr_count p) (pr_es p) = Ok bytes ->
  (forall i old e, InBox (sp_dims sp) i b -> ValueAt mpr m0 i old -> ValueAt mps ms i e -> exists v, Combined rd ro old e v /\ zlen v = lm_es mpr) ->
  Forall (fun st => KeepsReceive (snd st) /\ forall a, Inside (sp_dims sp) mpr b a -> Keeps a (snd st)) steps ->
  exists s' f w r, receive rd X other (x, p, m0) (mkFd [] 0) [] bytes steps = Ok (s', f, w, r) /\
    (recv_done (snd (fst s')) = true <-> w = [] /\ r = []) /\
    (recv_done (snd (fst s')) = true -> f = mkFd [] 0 /\
       forall i old e v, InBox (sp_dims sp) i b -> ValueAt mpr m0 i old -> ValueAt mps ms i e -> Combined rd ro old e v -> ValueAt mpr (snd s') i v) /\
    (forall a, ~ Inside (sp_dims sp) mpr b a -> Forall (fun st => Keeps a (snd st)) steps -> snd s' a = m0 a) /\
    (forall st1 st2, steps = st1 ++ st2 -> zlen bytes <= arrivals st1 -> zlen bytes <= zlen st2 -> recv_done (snd (fst s')) = true).
Proof.
  intros rd X other bin lid sp b n mps Bs Ns mpr Br Nr ms ro x p0 m0 p bytes steps Hd Hne Hc Hn HGs Hss HGr Hsr Hes Hb Hl HB Hr Hs HC HK.
  destruct (run_ok rd X other sp b mps Bs Ns mpr Br Nr ms ro m0 Hd Hne HGs Hss HGr Hsr Hes HC lid x p steps n bytes bin p0 Hl Hc Hn Hb HB Hr Hs HK) as (s' & f & w & r & A1 & A2 & A3 & A4 & A5 & A6).
  exists s', f, w, r. conjs; auto. intros Hdn. split; [apply A2 in Hdn; destruct Hdn; auto|].
  intros i old0 e v Hi V1 V2 HCv.
  assert (Hcan : In (can (sp_dims sp) i) (lexlist (sp_dims sp) b)).
  { apply (proj1 (lexlist_enum (sp_dims sp) b Hd Hne)). split; [apply InBox_can; auto|apply can_canon]. }
  assert (R := A4 Hdn _ Hcan). assert (Ea : adr (sp_dims sp) mpr Br (can (sp_dims sp) i) = adr (sp_dims sp) mpr Br i) by (unfold adr; rewrite boff_can; reflexivity). rewrite Ea in R.
  apply (value_adr sp Hd mpr Br Nr); auto. rewrite R.
  apply (value_adr sp Hd mpr Br Nr) in V1; auto. apply (value_adr sp Hd mps Bs Ns) in V2; auto.
  assert (Eo : old sp mpr Br m0 (can (sp_dims sp) i) = old0) by (unfold old; rewrite Ea; auto).
  assert (Ee : ev sp mps Bs ms (can (sp_dims sp) i) = e) by (unfold ev; rewrite val_can; auto).
  unfold nv. rewrite Eo, Ee. unfold Combined in HCv. destruct ro; try (rewrite HCv; auto); auto.
Qed.

(* Sending in binary mode always succeeds for elements of at most 8189 bytes *)
Theorem C52_binary_total : forall lid sp b n mps Bs Ns ms,
  valid_dims (sp_dims sp) -> NonEmpty (sp_dims sp) b -> HasCount (sp_dims sp) b n -> n < 2 ^ 31 ->
  GoodMap sp mps Bs Ns -> SubBox (sp_dims sp) b Bs -> lm_es mps <= 8189 -> 0 <= lid -> lm_start mps <> 0 ->
  exists bytes, send_range true lid sp b mps ms n (lm_es mps) = Ok bytes.
Proof. intros. eapply send_bin_total; eauto. Qed.

(* ... and in text mode for elements of at most 9 bytes, with at most 2 dimensions *)
Theorem C52_text_total : forall lid sp b n mps Bs Ns ms,
  valid_dims (sp_dims sp) -> (sp_dims sp <= 2)%nat -> NonEmpty (sp_dims sp) b -> HasCount (sp_dims sp) b n -> n < 2 ^ 31 ->
  GoodMap sp mps Bs Ns -> SubBox (sp_dims sp) b Bs -> lm_es mps <= 9 -> lm_start mps <> 0 ->
  exists bytes, send_range false lid sp b mps ms n (lm_es mps) = Ok bytes.
Proof.
  intros lid sp b n mps Bs Ns ms Hd Hd2 Hne Hc Hn HG Hs Hes Hst.
  assert (Hv := vol_of_count _ b n Hd Hne Hc). assert (Hp := vol_pos _ b Hd Hne). assert (HL := L_len sp b Hd Hne).
  assert (Hpos : 0 < lm_es mps) by (destruct HG as (_ & _ & _ & H & _); exact H).
  assert (HI : forall i, exists s, istr (sp_dims sp) i = Ok s).
  { intros i. unfold istr.
    assert (P : forall z, zlen (print_dec (z mod two64)) <= 20).
    { intros z. pose proof (Z.mod_pos_bound z two64 ltac:(reflexivity)). unfold zlen, print_dec. replace (z mod two64 <? 0) with false by lia.
      assert (length (print_nat (S (Z.to_nat (Z.log2 (z mod two64)))) (z mod two64)) <= 20)%nat; [|lia]. apply (print_nat_len 19). change (10 ^ Z.of_nat 20) with 100000000000000000000. change two64 with 18446744073709551616 in *. lia. }
    assert (P0 := P (i0 i)). assert (P1 := P (i1 i)).
    destruct Hd as [E|[E|E]]; rewrite E in *; [| |lia].
    - replace (zlen (print_dec (i0 i mod two64)) <? 50) with true by lia. eauto.
    - assert (zlen (print_dec (i0 i mod two64) ++ [47] ++ print_dec (i1 i mod two64)) < 50) by (rewrite !zlen_app; change (zlen [47]) with 1; lia).
      replace (zlen (print_dec (i0 i mod two64) ++ [47] ++ print_dec (i1 i mod two64)) <? 50) with true by lia. eauto. }
  assert (HD : forall j i e, 0 <= j < 2 ^ 31 -> zlen e = lm_es mps -> exists c, data_cmd j (sp_dims sp) i e = Ok c).
  { intros j i e Hj He. destruct (HI i) as [s Es]. unfold data_cmd. rewrite Es. cbn [obind].
    match goal with |- context [zlen ?s <? 100] => assert (Hz : zlen s < 100) end.
    { rewrite !zlen_app. pose proof (print_small j Hj). pose proof (istr_short _ _ _ Es).
      assert (zlen (print_dec (zlen e)) <= 1). { rewrite He. unfold print_dec. replace (lm_es mps <? 0) with false by lia. unfold zlen. assert (length (print_nat (S (Z.to_nat (Z.log2 (lm_es mps)))) (lm_es mps)) <= 1)%nat; [|lia]. apply (print_nat_len 0). change (10 ^ Z.of_nat 1) with 10. lia. }
      assert (zlen (flat_map (fun v => 32 :: hex2 v) e) = 3 * zlen e). { clear. unfold zlen. induction e; cbn [flat_map app hex2 length]; lia. }
      change (zlen [100; 97; 116; 97; 32]) with 5. change (zlen [32; 40]) with 2. change (zlen [58]) with 1. change (zlen [41]) with 1. lia. }
    match goal with |- context [zlen ?s <? 100] => replace (zlen s <? 100) with true by lia end. eauto. }
  assert (LP : forall fuel i j o, InBox (sp_dims sp) i b -> (length (lexfrom (sp_dims sp) b i) <= fuel)%nat -> 0 <= j -> j + zlen (lexfrom (sp_dims sp) b i) <= n ->
    exists o', send_loop fuel false lid (sp_dims sp) b mps ms i j o = Ok (o', j + zlen (lexfrom (sp_dims sp) b i))).
  { induction fuel as [|fuel IH]; intros i j o Hi Hf Hj Hjn; [rewrite lexfrom_step in Hf by auto; cbn in Hf; lia|].
    cbn [send_loop]. assert (HiB : InBox (sp_dims sp) i Bs) by (apply Hs; auto). destruct HG as (G1 & G2 & G3).
    rewrite (offset_ok sp _ _ Bs i Hd G1 G2 HiB). cbn [obind]. rewrite (lexfrom_step _ b i Hd Hi) in *. rewrite zlen_cons in *. pose proof (zlen_nonneg (let (b0, j0) := next_lex (sp_dims sp) b i in if b0 then lexfrom (sp_dims sp) b j0 else [])).
    destruct (HD j i (mread ms (lm_start mps + boff (sp_dims sp) Bs i * lm_es mps) (Z.to_nat (lm_es mps)))) as [c Ec]; [lia|unfold zlen; rewrite mread_length; lia|].
    rewrite Ec. cbn [obind]. destruct (next_lex (sp_dims sp) b i) as [[] k] eqn:E.
    - cbn [length] in Hf. destruct (IH k (j + 1) (mkSb (sb_data o) (sb_to o) (sb_out o ++ cmd_bytes c))) as [o' Eo]; [eapply next_lex_in; eauto|lia|lia|lia|]. exists o'. rewrite Eo. do 2 f_equal. lia.
    - eexists. change (zlen (@nil index)) with 0. replace (j + (1 + 0)) with (j + 1) by lia. reflexivity. }
  unfold send_range. replace (lm_start mps =? 0) with false by lia. cbn [cassert negb]. rewrite box_size_vol, <- Hv; auto; [|rewrite <- Hv; change two64 with (2 ^ 31 * 2 ^ 33); lia]. cbn [obind].
  rewrite as_int_id, !Z.eqb_refl by lia. cbn [cassert]. unfold lexlist in HL.
  destruct (LP (S (Z.to_nat n)) (b_from b) 0 sbuf_init) as [o Eo]; [apply (from_in sp b Hne)|unfold zlen in HL; lia|lia|lia|].
  rewrite Eo. cbn [obind fst snd]. replace (0 + zlen (lexfrom (sp_dims sp) b (b_from b)) =? n) with true by lia. cbn [cassert obind]. eauto.
Qed.

(* Elements of more than 8189 bytes cannot be sent in binary mode: the program aborts *)
Theorem C52_large_elements_refuted : forall lid sp b n mps Bs Ns ms,
  valid_dims (sp_dims sp) -> NonEmpty (sp_dims sp) b -> HasCount (sp_dims sp) b n -> n < 2 ^ 31 ->
  GoodMap sp mps Bs Ns -> SubBox (sp_dims sp) b Bs -> lm_es mps > 8189 -> 0 <= lid ->
  send_range true lid sp b mps ms n (lm_es mps) = Abort.
Proof.
  intros lid sp b n mps Bs Ns ms Hd Hne Hc Hn HG Hs Hes Hl. assert (Hv := vol_of_count _ b n Hd Hne Hc). assert (Hp := vol_pos _ b Hd Hne).
  unfold send_range. destruct (negb _); [|reflexivity]. cbn [cassert]. rewrite box_size_vol, <- Hv; auto; [|rewrite <- Hv; change two64 with (2 ^ 31 * 2 ^ 33); lia]. cbn [obind].
  rewrite as_int_id, !Z.eqb_refl by lia. cbn [cassert send_loop]. assert (Hf := from_in sp b Hne). assert (HiB : InBox (sp_dims sp) (b_from b) Bs) by (apply Hs; auto). destruct HG as (G1 & G2 & _).
  rewrite (offset_ok sp _ _ Bs _ Hd G1 G2 HiB). cbn [obind]. unfold bin_add. cbn [sbuf_init sb_data]. change (zlen (@nil Z)) with 0. unfold zlen at 1. rewrite mread_length.
  replace (3 + 0 + Z.of_nat (Z.to_nat (lm_es mps)) >? sbuf_len) with true by (change sbuf_len with 8192; lia). unfold bin_flush. cbn [sbuf_init sb_to]. replace (-1 =? lid) with false by lia. reflexivity.
Qed.

(* Elements of 30 bytes and more cannot be sent in text mode: the buffer for the command overflows *)
Theorem C52_text_elements_refuted : forall lid sp b n mps Bs Ns ms,
  valid_dims (sp_dims sp) -> NonEmpty (sp_dims sp) b -> HasCount (sp_dims sp) b n -> n < 2 ^ 31 ->
  GoodMap sp mps Bs Ns -> SubBox (sp_dims sp) b Bs -> lm_es mps >= 30 -> lm_start mps <> 0 ->
  send_range false lid sp b mps ms n (lm_es mps) = UB.
Proof.
  intros lid sp b n mps Bs Ns ms Hd Hne Hc Hn HG Hs Hes Hl. assert (Hv := vol_of_count _ b n Hd Hne Hc). assert (Hp := vol_pos _ b Hd Hne).
  unfold send_range. replace (lm_start mps =? 0) with false by lia. cbn [negb cassert]. rewrite box_size_vol, <- Hv; auto; [|rewrite <- Hv; change two64 with (2 ^ 31 * 2 ^ 33); lia]. cbn [obind].
  rewrite as_int_id, !Z.eqb_refl by lia. cbn [cassert send_loop]. assert (Hf := from_in sp b Hne). assert (HiB : InBox (sp_dims sp) (b_from b) Bs) by (apply Hs; auto). destruct HG as (G1 & G2 & _).
  rewrite (offset_ok sp _ _ Bs _ Hd G1 G2 HiB). cbn [obind].
  set (e := mread _ _ _). assert (He : zlen e = lm_es mps) by (unfold e, zlen; rewrite mread_length; lia). clearbody e.
  assert (HU : data_cmd 0 (sp_dims sp) (b_from b) e = UB).
  { unfold data_cmd. destruct (istr (sp_dims sp) (b_from b)) as [s| | | |] eqn:Es; cbn [obind]; auto.
    - match goal with |- context [zlen ?s <? 100] => assert (Hz : zlen s >= 100) end.
      { rewrite !zlen_app. pose proof (zlen_nonneg s).
        assert (zlen (flat_map (fun v => 32 :: hex2 v) e) = 3 * zlen e). { clear. unfold zlen. induction e; cbn [flat_map app hex2 length]; lia. }
        assert (NE : forall z, 0 <= z -> 1 <= zlen (print_dec z)). { intros z Hz. unfold print_dec. replace (z <? 0) with false by lia. cbn [print_nat]. destruct (z <? 10); unfold zlen; rewrite ?app_length; cbn [length]; lia. }
        pose proof (NE 0 ltac:(lia)). pose proof (NE (zlen e) ltac:(lia)).
        change (zlen [100; 97; 116; 97; 32]) with 5. change (zlen [32; 40]) with 2. change (zlen [58]) with 1. change (zlen [41]) with 1. lia. }
      match goal with |- context [zlen ?s <? 100] => replace (zlen s <? 100) with false by lia end. reflexivity.
    - unfold istr in Es. destruct (_ <? 50) in Es; discriminate.
    - unfold istr in Es. destruct (_ <? 50) in Es; discriminate.
    - unfold istr in Es. destruct (_ <? 50) in Es; discriminate. }
  rewrite HU. reflexivity.
Qed.

(* Ranges with 2^31 to 2^32 - 1 indexes cannot be received: the program aborts *)
Theorem C52_large_ranges_refuted : forall sp b n mpr ro p0,
  valid_dims (sp_dims sp) -> NonEmpty (sp_dims sp) b -> HasCount (sp_dims sp) b n -> 2 ^ 31 <= n < 2 ^ 32 -> recv_start sp b mpr ro p0 = Abort.
Proof.
  intros sp b n mpr ro p0 Hd Hne Hc Hn. assert (Hv := vol_of_count _ b n Hd Hne Hc). unfold recv_start.
  destruct (negb _); [|reflexivity]. cbn [cassert]. destruct (_ =? 0); [|reflexivity]. cbn [cassert].
  rewrite box_size_vol, <- Hv; auto; [|rewrite <- Hv; change two64 with (2 ^ 32 * 2 ^ 32); change (2 ^ 32) with 4294967296 in *; lia]. cbn [obind].
  assert (as_int n <= 0).
  { unfold as_int. change (2 ^ 32) with 4294967296 in *. change (2 ^ 31) with 2147483648 in *.
    replace (n + 2147483648) with (n - 2147483648 + 1 * 4294967296) by lia. rewrite Z.mod_add by lia. rewrite Z.mod_small by lia. lia. }
  replace (as_int n >? 0) with false by lia. reflexivity.
Qed.

(* an example: a 2x2 part of a mapping of 3x2 elements, arriving in pieces, with reduction *)
Definition x_b := mkBox (mkIdx 1 0 0) (mkIdx 3 2 0).
Definition x_p0 := mkRp 0 0 0 None xsp xb1 (mkIdx 0 0 0) RO_None.
Lemma x_ne : NonEmpty 2 x_b. Proof. exists (mkIdx 1 0 0). unfold InBox; cbn; lia. Qed.
Lemma x_sub : SubBox 2 x_b xb1. Proof. intros i H. unfold InBox in *. cbn in *. lia. Qed.
Definition x_steps := map (fun n => (n, fun s : pstate (list (list Z)) => s)) ([4; 3; 1; 0; 500] ++ repeat 0 200)%nat.
Example C52_example : forall bin, exists p bytes s' f w r,
  HasCount 2 x_b 4 /\ GoodMap xsp (xmp 0 xb1 100) xb1 6 /\ GoodMap xsp (xmp 0 xb1 500) xb1 6 /\ SubBox 2 x_b xb1 /\
  recv_start xsp x_b (xmp 0 xb1 500) RO_Sum x_p0 = Ok p /\
  send_range bin 3 xsp x_b (xmp 0 xb1 100) xmem (pr_count p) (pr_es p) = Ok bytes /\
  receive x_sum _ x_other ([], p, xmem) (mkFd [] 0) [] bytes x_steps = Ok (s', f, w, r) /\ recv_done (snd (fst s')) = true /\
  (forall i old e v, InBox 2 i x_b -> ValueAt (xmp 0 xb1 500) xmem i old -> ValueAt (xmp 0 xb1 100) xmem i e -> Combined x_sum RO_Sum old e v -> ValueAt (xmp 0 xb1 500) (snd s') i v) /\
  mread (snd s') 500 12 = [244; 245; 92; 94; 96; 98; 250; 251; 104; 106; 108; 110].
Proof.
  intros bin. assert (HC : HasCount 2 x_b 4) by exact (vol_count 2 x_b xvd x_ne).
  assert (Hp : exists p, recv_start xsp x_b (xmp 0 xb1 500) RO_Sum x_p0 = Ok p) by (eexists; vm_compute; reflexivity). destruct Hp as [p Hp].
  assert (Hq : exists bytes, send_range bin 3 xsp x_b (xmp 0 xb1 100) xmem (pr_count p) (pr_es p) = Ok bytes /\ zlen bytes <= 200).
  { vm_compute in Hp. injection Hp as <-. destruct bin; eexists; (split; [vm_compute; reflexivity|vm_compute; discriminate]). }
  destruct Hq as (bytes & Hq & Hlen).
  destruct (C52_transfer x_sum (list (list Z)) x_other bin 3 xsp x_b 4 (xmp 0 xb1 100) xb1 6 (xmp 0 xb1 500) xb1 6 xmem RO_Sum [] x_p0 xmem p bytes x_steps) as (s' & f & w & r & A1 & A2 & A3 & A4 & A5); auto.
  - exact xvd. - exact x_ne. - reflexivity. - apply xgood1. - exact x_sub. - apply xgood1. - exact x_sub. - cbn. lia. - lia.
  - intros a. unfold xmem. apply Z.mod_pos_bound. lia.
  - intros i old e _ (a & _ & ->) (a2 & _ & ->). eexists. split; [reflexivity|]. unfold zlen. rewrite map_length, combine_length, !mread_length. reflexivity.
  - unfold x_steps. rewrite Forall_map. apply Forall_forall. intros n _. split; [intros s; reflexivity|intros a _ s; reflexivity].
  - assert (Dn : recv_done (snd (fst s')) = true).
    { apply (A5 (map (fun n => (n, fun s => s)) [4; 3; 1; 0; 500]%nat) (map (fun n => (n, fun s => s)) (repeat 0%nat 200))); [unfold x_steps; apply map_app| |].
      - apply Z.le_trans with 200; [exact Hlen|]. vm_compute. discriminate.
      - apply Z.le_trans with 200; [exact Hlen|]. vm_compute. discriminate. }
    exists p, bytes, s', f, w, r. conjs; auto.
    + apply xgood1.
    + apply xgood1.
    + exact x_sub.
    + apply A3; auto.
    + assert (E : match recv_start xsp x_b (xmp 0 xb1 500) RO_Sum x_p0 with Ok p1 =>
          match send_range bin 3 xsp x_b (xmp 0 xb1 100) xmem (pr_count p1) (pr_es p1) with Ok b1 =>
            match receive x_sum _ x_other ([], p1, xmem) (mkFd [] 0) [] b1 x_steps with Ok s1 => mread (snd (fst (fst (fst s1)))) 500 12 | _ => [] end
          | _ => [] end | _ => [] end = [244; 245; 92; 94; 96; 98; 250; 251; 104; 106; 108; 110]) by (destruct bin; vm_compute; reflexivity).
      rewrite Hp, Hq, A1 in E. exact E.
Qed.

Print Assumptions C51_framing.
Print Assumptions C51_any_split.
Print Assumptions C51_long_command_refuted.
Print Assumptions C51_example.
Print Assumptions C51_carriage_return.
Print Assumptions C51_cr_example.
Print Assumptions C52_late_data.
Print Assumptions C52_permission.
Print Assumptions C52_transfer.
Print Assumptions C52_binary_total.
Print Assumptions C52_text_total.
Print Assumptions C52_large_elements_refuted.
Print Assumptions C52_text_elements_refuted.
Print Assumptions C52_large_ranges_refuted.
Print Assumptions C52_example.
