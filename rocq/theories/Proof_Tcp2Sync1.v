(* C54: the messages of a synchronisation, and what they do to a store *)
From Coq Require Import ZArith List Bool Lia ZifyBool ZifyNat Sorted Permutation.
From Verif Require Import Base ListFacts Model_RangeList Model_KVS Model_SpaceStore Model_Tcp2 Model_Switch Spec_RangeList Spec_KVS Model_Tcp2Sync Spec_Tcp2Sync Spec_SpaceStore
  Proof_RangeList5 Proof_SpaceStore Proof_KVS Proof_KVS2 Proof_KVS3 Proof_KVS5 Proof_KVS6 Proof_KVS8.
Import ListNotations.
Open Scope Z_scope.

(* ---------- scanning ---------- *)

Lemma take_word_app w : forall n l, Forall (fun c => is_space c = false) w -> (length w <= n)%nat -> (l = [] \/ is_space (hd 0 l) = true) ->
  take_word n (w ++ l) = (w, l).
Proof.
  induction w as [|c w IH]; intros n l HF Hn Hl; cbn [app].
  - destruct n, l as [|d l]; cbn; auto. destruct Hl as [Hl|Hl]; [discriminate|]. cbn in Hl. rewrite Hl. auto.
  - inversion HF as [|? ? F1 F2]; subst. cbn [length] in Hn. destruct n as [|n]; [lia|]. cbn. rewrite F1, IH by (auto; lia). auto.
Qed.
Lemma skip_space_nosp l : is_space (hd 0 l) = false -> skip_space l = l.
Proof. destruct l as [|c l]; auto. cbn. intros ->. auto. Qed.
Lemma scan_word_app w n l : w <> [] -> Forall (fun c => is_space c = false) w -> (length w <= n)%nat -> (l = [] \/ is_space (hd 0 l) = true) ->
  scan_word n (w ++ l) = Some (w, l).
Proof.
  intros Hw HF Hn Hl. unfold scan_word. rewrite skip_space_nosp.
  - rewrite take_word_app by auto. destruct w; congruence.
  - destruct w; [congruence|]. inversion HF; subst. auto.
Qed.
Lemma scan_word_sp w n l : w <> [] -> Forall (fun c => is_space c = false) w -> (length w <= n)%nat -> (l = [] \/ is_space (hd 0 l) = true) ->
  scan_word n (32 :: w ++ l) = Some (w, l).
Proof. intros. rewrite <- (scan_word_app w n l) by auto. reflexivity. Qed.
Lemma take_line_all v : forall n, (length v <= n)%nat -> Forall (fun c => c <> 10) v -> take_line n v = v.
Proof.
  induction v as [|c v IH]; intros n Hn HF; destruct n; auto; cbn [length] in Hn; [lia|]. inversion HF; subst. cbn.
  destruct (c =? 10) eqn:E; [lia|]. rewrite IH; auto. lia.
Qed.

Lemma key_nosp k : KeyFits k -> Forall (fun c => is_space c = false) k.
Proof. intros (_ & _ & H). eapply Forall_impl; [|exact H]. cbn. tauto. Qed.

Definition with_name (x : sproc) (n : option (list Z)) : sproc := mkSq (sq_prog x) (sq_ph x) (sq_st x) (sq_kvs x) n (sq_chg x) (sq_rcv x).
Definition with_chg (x : sproc) (n : Z) : sproc := mkSq (sq_prog x) (sq_ph x) (sq_st x) (sq_kvs x) (sq_name x) n (sq_rcv x).

Lemma got_allow name x : NameFits name -> sq_name x = None -> got_kvs 0 x (str_allow ++ name) = Ok (with_name x (Some name)).
Proof.
  intros HN Hx. unfold got_kvs. cbn [str_allow app tl].
  change (skip1 32 (skip1 115 (skip1 118 (118 :: 115 :: 32 :: 97 :: 108 :: 108 :: 111 :: 119 :: 32 :: name)))) with ([97; 108; 108; 111; 119] ++ 32 :: name).
  cbn [app]. change (97 =? 97) with true. cbn match. unfold got_kvs_allow. change (negb (0 =? 0)) with false. cbn match.
  change (97 :: 108 :: 108 :: 111 :: 119 :: 32 :: name) with ([97; 108; 108; 111; 119] ++ 32 :: name).
  rewrite scan_word_app; [|discriminate|repeat constructor|cbn; lia|right; reflexivity].
  destruct HN as (H1 & H2 & H3).
  replace (32 :: name) with (32 :: name ++ []) by (rewrite app_nil_r; auto).
  rewrite scan_word_sp; auto; [|eapply Forall_impl; [|exact H3]; cbn; tauto]. rewrite Hx. reflexivity.
Qed.

Lemma got_changes l x n : 0 <= n < 2 ^ 31 -> sq_kvs x = true -> sq_chg x = -1 -> sq_rcv x = 0 ->
  got_kvs l x (str_changes ++ print_dec n) = Ok (with_chg x n).
Proof.
  intros Hn H1 H2 H3. unfold got_kvs. cbn [str_changes app tl].
  change (skip1 32 (skip1 115 (skip1 118 (118 :: 115 :: 32 :: 99 :: 104 :: 97 :: 110 :: 103 :: 101 :: 115 :: 32 :: print_dec n))))
    with (99 :: 104 :: 97 :: 110 :: 103 :: 101 :: 115 :: 32 :: print_dec n).
  cbn match. change (99 =? 97) with false. change (99 =? 99) with true. cbn match. unfold got_kvs_changes.
  change (99 :: 104 :: 97 :: 110 :: 103 :: 101 :: 115 :: 32 :: print_dec n) with ([99; 104; 97; 110; 103; 101; 115] ++ 32 :: print_dec n).
  rewrite scan_word_app; [|discriminate|repeat constructor|cbn; lia|right; reflexivity].
  replace (scan_dec (32 :: print_dec n)) with (scan_dec (print_dec n)) by reflexivity.
  replace (print_dec n) with (print_dec n ++ []) by apply app_nil_r. rewrite scan_print; [|unfold Int64; lia|exact I].
  rewrite H1, H2, H3. change (negb true) with false. change (-1 =? -1) with true. change (0 =? 0) with true. cbn [cassert].
  unfold with_chg. rewrite H1, H3. replace (as_int n) with n; [reflexivity|]. unfold as_int. change (2 ^ 31) with 2147483648 in *. change (2 ^ 32) with 4294967296. rewrite Z.mod_small; lia.
Qed.

Lemma got_data l x k v : KeyFits k -> ValueFits k v -> sq_kvs x = true -> 0 <= sq_rcv x < sq_chg x ->
  got_kvs l x (str_data ++ k ++ [32] ++ v) =
  do s <- set_updated (sq_st x) k v; Ok (mkSq (sq_prog x) (sq_ph x) s (sq_kvs x) (sq_name x) (sq_chg x) (sq_rcv x + 1)).
Proof.
  intros HK (V1 & V2 & V3 & V4) Hx Hr. unfold got_kvs. cbn [str_data app tl].
  change (skip1 32 (skip1 115 (skip1 118 (118 :: 115 :: 32 :: 100 :: 97 :: 116 :: 97 :: 32 :: k ++ 32 :: v))))
    with (100 :: 97 :: 116 :: 97 :: 32 :: k ++ 32 :: v).
  cbn match. change (100 =? 97) with false. change (100 =? 99) with false. change (100 =? 100) with true. cbn match. unfold got_kvs_data.
  change (100 :: 97 :: 116 :: 97 :: 32 :: k ++ 32 :: v) with ([100; 97; 116; 97] ++ 32 :: k ++ 32 :: v).
  rewrite scan_word_app; [|discriminate|repeat constructor|cbn; lia|right; reflexivity].
  rewrite scan_word_sp; [|apply HK|apply key_nosp; auto|apply HK|right; reflexivity].
  change (skip_space (32 :: v)) with (skip_space v). rewrite skip_space_nosp by auto.
  rewrite take_line_all; [|lia|eapply Forall_impl; [|exact V4]; cbn; tauto].
  destruct v as [|c v]; [congruence|]. rewrite Hx. cbn [cassert].
  destruct (sq_chg x >? 0) eqn:E1; [|lia]. destruct (sq_rcv x <? sq_chg x) eqn:E2; [|lia]. cbn [cassert]. reflexivity.
Qed.

(* ---------- maps ---------- *)

Lemma fold_last h : forall B k, Forall SetFits h ->
  fold_left map_op h B k = match last_set h k with Some v => Some (v ++ [0]) | None => B k end.
Proof.
  induction h as [|o h IH]; intros B k HF; [reflexivity|]. inversion HF as [|? ? F1 F2]; subst. cbn [fold_left last_set]. rewrite IH by auto.
  destruct (last_set h k); auto. destruct o; try destruct F1; cbn; auto. unfold mput. destruct (list_eq_dec Z.eq_dec k k0); auto.
Qed.
Lemma last_set_snoc h o k : last_set (h ++ [o]) k =
  match o with OSets k' v => if list_eq_dec Z.eq_dec k k' then Some v else last_set h k | _ => last_set h k end.
Proof.
  induction h as [|a h IH]; cbn [app last_set].
  - destruct o; auto.
  - rewrite IH. destruct o; auto. destruct (list_eq_dec Z.eq_dec k k0); auto.
Qed.

(* ---------- the store of a process between synchronisations ---------- *)

Definition Fit (k w : list Z) : Prop := exists v, w = v ++ [0] /\ KeyFits k /\ ValueFits k v.
Lemma Fit_cstring k w : Fit k w -> CString w.
Proof. intros (v & -> & _ & (_ & _ & _ & H)). exists v. split; auto. intros X. rewrite Forall_forall in H. specialize (H 0 X). cbn in H. lia. Qed.

(* B: contents at the last synchronisation, h: operations since then *)
Definition RI (B : kmap) (h : list kop) (s : store) : Prop :=
  KI s /\ ks_insync s = false /\ (exists J, JRep (ks_changes s) J []) /\
  forall k, match look (ks_ent s) k with
            | None => fold_left map_op h B k = None
            | Some (v, u) => v = fold_left map_op h B k /\ (exists w, v = Some w /\ Fit k w) /\ if u : bool then last_set h k <> None else B k = v
            end.

Lemma RI_seen B h s k : RI B h s -> seen (ks_ent s) k = fold_left map_op h B k.
Proof. intros (_ & _ & _ & H). specialize (H k). unfold seen. destruct (look _ k) as [[v u]|]; auto. apply H. Qed.
Lemma RI_cs B h s k w : RI B h s -> seen (ks_ent s) k = Some w -> CString w.
Proof.
  intros (_ & _ & _ & H) Hs. specialize (H k). unfold seen in Hs. destruct (look _ k) as [[v u]|]; [|discriminate]. subst v.
  destruct H as (_ & (w' & E & F) & _). injection E as ->. eapply Fit_cstring; eauto.
Qed.

Lemma RI_op q B h s o : is_qsort kvs_cmp q -> PrefixFree CString -> RI B h s -> SetFits o -> exists s', exec_op q s o = Ok s' /\ RI B (h ++ [o]) s'.
Proof.
  intros Q PF HR HO. assert (H := HR). destruct H as (H1 & H2 & (J & H3) & H4). destruct o as [| k v | | |]; try destruct HO.
  - rename H into KF, H0 into VF. cbn [exec_op]. unfold kvs_sets.
    assert (F : Fit k (v ++ [0])) by (exists v; auto).
    destruct (kvs_set_spec CString s k (v ++ [0]) J PF H1 H3 H2 (fun k w => RI_cs B h s k w HR) (Fit_cstring _ _ F)) as [(E1 & E2)|(E1 & s' & E2 & E3 & E4 & E5 & E6)].
    + exists s. split; auto. split; auto. split; auto. split; [eauto|]. intros k'. specialize (H4 k'). rewrite fold_left_app. cbn [fold_left map_op]. unfold mput.
      rewrite last_set_snoc. unfold seen in E1. destruct (list_eq_dec Z.eq_dec k' k) as [->|Hn].
      * destruct (look (ks_ent s) k) as [[v' u]|]; [|discriminate]. subst v'. split; auto. split; [apply H4|]. destruct u; [discriminate|apply H4].
      * exact H4.
    + exists s'. split; auto. split; auto. split; auto. split; [eauto|]. intros k'. specialize (H4 k'). rewrite fold_left_app. cbn [fold_left map_op]. unfold mput.
      rewrite last_set_snoc. rewrite E6. unfold upd_look. change keq with (list_eq_dec Z.eq_dec). destruct (list_eq_dec Z.eq_dec k' k) as [->|Hn].
      * split; auto. split; [eauto|discriminate].
      * exact H4.
  - eexists. split; [reflexivity|]. destruct (Q (ks_ent s)) as [Q1 _]. split; [now apply KI_sort|]. split; auto. split; [exists J; auto|].
    intros k. cbn [kvs_sort ks_ent]. rewrite <- (look_perm (ks_ent s) (q (ks_ent s))); auto; [|apply H1]. rewrite fold_left_app, last_set_snoc. apply H4.
Qed.

(* ---------- during a synchronisation which leads to contents B ---------- *)

Definition TS (B : kmap) (s : store) : Prop :=
  KI s /\ ks_insync s = true /\ JSize (ks_changes s) /\
  forall k v u, look (ks_ent s) k = Some (v, u) -> exists w, v = Some w /\ Fit k w /\ B k <> None /\ (u = true -> B k = Some w).

Lemma RI_begin B h s B' : RI B h s -> Forall SetFits h -> (forall k v, last_set h k = Some v -> B' k = Some (v ++ [0])) -> (forall k, B k <> None -> B' k <> None) ->
  TS B' (sync_begin s) /\ (forall k, seen (ks_ent (sync_begin s)) k = fold_left map_op h B k) /\
  (forall k, fold_left map_op h B k <> B k -> exists v, look (ks_ent (sync_begin s)) k = Some (v, true)).
Proof.
  intros HR HF HL HB. assert (H := HR). destruct H as (H1 & H2 & (J & H3) & H4). cbn [sync_begin ks_ent]. split; [|split].
  - split; [exact H1|]. split; auto. split; [apply H3|]. cbn [sync_begin ks_ent]. intros k v u E. specialize (H4 k). rewrite E in H4. destruct H4 as (A1 & (w & A2 & A3) & A4). exists w.
    split; auto. split; auto. rewrite fold_last in A1 by auto. destruct u.
    + destruct (last_set h k) as [v'|] eqn:Ek; [|congruence]. rewrite (HL k v' Ek). split; [discriminate|]. intros _. congruence.
    + split; [|discriminate]. apply HB. congruence.
  - intros k. now apply RI_seen.
  - intros k Hk. specialize (H4 k). destruct (look (ks_ent s) k) as [[v u]|].
    + destruct u; [eauto|]. destruct H4 as (A1 & _ & A4). congruence.
    + rewrite fold_last in * by auto. destruct (last_set h k); congruence.
Qed.

Lemma TS_set B s k v : PrefixFree CString -> TS B s -> KeyFits k -> ValueFits k v -> B k = Some (v ++ [0]) ->
  exists s', set_updated s k v = Ok s' /\ TS B s' /\ forall k', look (ks_ent s') k' = upd_look (look (ks_ent s)) k (Some (v ++ [0]), true) k'.
Proof.
  intros PF (H1 & H2 & H3 & H4) KF VF HB. assert (F : Fit k (v ++ [0])) by (exists v; auto). unfold set_updated, kvs_sets.
  assert (HV : forall k w, seen (ks_ent s) k = Some w -> CString w).
  { intros k' w E. unfold seen in E. destruct (look (ks_ent s) k') as [[v' u]|] eqn:El; [|discriminate]. subst v'. destruct (H4 k' _ u El) as (w' & E & F' & _). injection E as ->. eapply Fit_cstring; eauto. }
  assert (G : exists s1 u, kvs_set s k (v ++ [0]) = Ok s1 /\ KI s1 /\ ks_changes s1 = ks_changes s /\ ks_insync s1 = true /\
                forall k', look (ks_ent s1) k' = upd_look (look (ks_ent s)) k (Some (v ++ [0]), u) k').
  { destruct (kvs_set_sync CString s k (v ++ [0]) PF H1 H2 HV (Fit_cstring _ _ F)) as [(E1 & E2)|[(E1 & (x & E2) & _)|(E1 & _ & s' & E3 & E4 & E5 & E6 & E7)]].
    - unfold seen in E1. destruct (look (ks_ent s) k) as [[v' u]|] eqn:El; [|discriminate]. subst v'. exists s, u. split; auto. split; auto. split; auto. split; auto.
      intros k'. unfold upd_look. destruct (keq k' k) as [->|]; auto.
    - exfalso. destruct (H4 k x true E2) as (w & -> & _ & _ & E). specialize (E eq_refl). unfold seen in E1. rewrite E2 in E1. congruence.
    - exists s', false. auto. }
  destruct G as (s1 & u & G1 & G2 & G3 & G4 & G5). rewrite G1. cbn [obind].
  destruct (kvs_entry_spec s1 k G2) as [r [-> R]]. cbn [obind]. destruct r as [i|].
  2: { rewrite G5 in R. unfold upd_look in R. destruct (keq k k); congruence. }
  destruct R as (e & R1 & R2 & R3). rewrite R1. eexists. split; [reflexivity|].
  assert (Ev : ke_val e = Some (v ++ [0])) by (rewrite G5 in R3; unfold upd_look in R3; destruct (keq k k); congruence).
  assert (L : forall k', look (ks_ent (put_entry s1 i (mkKe (ke_key e) (ke_val e) true))) k' = upd_look (look (ks_ent s)) k (Some (v ++ [0]), true) k').
  { intros k'. cbn [put_entry ks_ent]. rewrite (look_upd _ i e); auto; [|apply G2]. cbn [ke_val ke_upd]. rewrite R2, Ev. unfold upd_look. destruct (keq k' k) as [->|Hn]; auto.
    rewrite G5. unfold upd_look. destruct (keq k' k); congruence. }
  split; [|exact L]. split; [apply KI_put with (e := e); auto|]. split; [exact G4|]. split; [cbn [put_entry ks_changes]; rewrite G3; auto|].
  intros k' v' u' E. rewrite L in E. unfold upd_look in E. destruct (keq k' k) as [->|Hn]; [|eauto].
  injection E as <- <-. exists (v ++ [0]). split; auto. split; auto. rewrite HB. split; [discriminate|auto].
Qed.

Lemma TS_end q B s : is_qsort kvs_cmp q -> TS B s -> (forall k, seen (ks_ent s) k = B k) -> exists s', sync_end q s = Ok s' /\ RI B [] s' /\ ks_sorted s' = used s'.
Proof.
  intros Q (H1 & H2 & H3 & H4) HS. unfold sync_end. destruct (set_size0 (ks_changes s) H3) as [c' [E1 [E2 [E3 _]]]]. rewrite E1. cbn [obind].
  eexists. split; [reflexivity|]. set (s1 := mkKvs _ _ _ _ _).
  assert (K1 : KI s1).
  { destruct H1 as (N & B1 & S & P1 & P2). unfold KI, s1, used in *; cbn [ks_ent ks_sorted ks_size]. rewrite map_length, map_map. cbn [ke_key]. conjs; auto; try lia.
    rewrite firstn_map, map_map. cbn [ke_key]. auto. }
  split; [|unfold kvs_sort, used; cbn [ks_sorted ks_ent]; f_equal; apply Permutation_length; apply Q].
  split; [now apply KI_sort|]. split; auto. split; [exists []; auto|]. intros k. cbn [kvs_sort ks_ent fold_left]. destruct (Q (ks_ent s1)) as [Q1 _].
  rewrite <- (look_perm (ks_ent s1) (q (ks_ent s1))); auto; [|apply K1]. unfold s1. cbn [ks_ent]. fold clearu. rewrite look_clear. specialize (HS k). unfold seen in HS.
  destruct (look (ks_ent s) k) as [[v u]|] eqn:El; [|auto]. destruct (H4 k v u El) as (w & -> & F & _ & _). split; auto. split; eauto.
Qed.

(* the messages with the changes in a store *)
Definition dmsg (c : list Z * list Z) : list Z := str_data ++ fst c ++ [32] ++ cstr (snd c).
Definition cmsg (n : Z) : list Z := str_changes ++ print_dec n.
Definition Small (B : kmap) : Prop := exists L : list (list Z), Z.of_nat (length L) < 2 ^ 31 /\ forall k, B k <> None -> In k L.
Definition val0 (e : kentry) : list Z := match ke_val e with Some v => v | None => [] end.

Lemma omapm_all {A B} (f : A -> outcome B) (g : A -> B) l : (forall x, In x l -> f x = Ok (g x)) -> omapm f l = Ok (map g l).
Proof. induction l as [|x l IH]; intros H; [reflexivity|]. cbn. rewrite H by (now left). cbn. rewrite IH; [reflexivity|]. intros y Hy. apply H. now right. Qed.

Lemma cstr_fit v : ~ In 0 v -> cstr (v ++ [0]) = v.
Proof. apply (cstr_app v []). Qed.
Lemma Fit_nz k v : ValueFits k v -> ~ In 0 v.
Proof. intros (_ & _ & _ & H) X. rewrite Forall_forall in H. specialize (H 0 X). cbn in H. lia. Qed.

Lemma print_dec_len n : 0 <= n < 2 ^ 31 -> (length (print_dec n) <= 32)%nat.
Proof.
  intros Hn. unfold print_dec. destruct (n <? 0) eqn:E; [lia|].
  assert (L : forall f z, (length (print_nat f z) <= f)%nat).
  { induction f as [|f IH]; intros z; cbn; [lia|]. destruct (z <? 10); cbn; [lia|]. rewrite app_length. cbn. specialize (IH (z / 10)). lia. }
  eapply Nat.le_trans; [apply L|].
  assert (Z.log2 n < 31 \/ n = 0) as [X| ->] by (destruct (Z.eq_dec n 0); [auto|left; apply Z.log2_lt_pow2; lia]); [lia|cbn; lia].
Qed.

Lemma upd_cmds_ok B s : TS B s -> Small B ->
  exists D, upd_cmds s = Ok (cmsg (zlen D) :: map dmsg D) /\ zlen D < 2 ^ 31 /\
    (forall k w, In (k, w) D <-> look (ks_ent s) k = Some (Some w, true)) /\ (forall k w, In (k, w) D -> Fit k w /\ B k = Some w).
Proof.
  intros (H1 & H2 & H3 & H4) (L & HL1 & HL2). set (u := filter ke_upd (ks_ent s)). exists (map (fun e => (ke_key e, val0 e)) u).
  assert (HK : forall e, In e (ks_ent s) -> exists i, nth_error (ks_ent s) i = Some e) by (intros e He; apply In_nth_error; auto).
  assert (HE : forall e, In e (ks_ent s) -> look (ks_ent s) (ke_key e) = Some (ke_val e, ke_upd e)) by (intros e He; destruct (HK e He) as [i Hi]; apply (look_nth _ i); auto; apply H1).
  assert (Hlen : Z.of_nat (length u) < 2 ^ 31).
  { assert (X : (length u <= length (ks_ent s))%nat) by (unfold u; clear; induction (ks_ent s) as [|e l IH]; cbn; [lia|destruct (ke_upd e); cbn; lia]).
    assert (Y : (length (map ke_key (ks_ent s)) <= length L)%nat).
    { apply NoDup_incl_length; [apply H1|]. intros k Hk. apply in_map_iff in Hk. destruct Hk as (e & <- & He). apply HL2. destruct (H4 _ _ _ (HE e He)) as (w & _ & _ & X' & _). auto. }
    rewrite map_length in Y. lia. }
  assert (EZ : zlen (map (fun e => (ke_key e, val0 e)) u) = zlen u) by (unfold zlen; rewrite map_length; auto). rewrite EZ.
  split; [|split; [exact Hlen|]].
  - unfold upd_cmds. fold u. unfold kvs_changes_cmd, into_msg. fold (cmsg (zlen u)).
    assert (Lm : zlen (cmsg (zlen u)) + 1 <= 100).
    { unfold zlen at 1. unfold cmsg. rewrite app_length. assert (P := print_dec_len (zlen u)). unfold zlen in *. cbn [str_changes length]. specialize (P ltac:(lia)). lia. }
    destruct (zlen (cmsg (zlen u)) + 1 >? 100) eqn:E; [lia|]. cbn [obind].
    rewrite (omapm_all _ (fun e => dmsg (ke_key e, val0 e))); [cbn [obind]; rewrite map_map; reflexivity|].
    intros e He. unfold u in He. apply filter_In in He. destruct He as [He Hu]. destruct (H4 _ _ _ (HE e He)) as (w & Ew & F & _ & _).
    destruct F as (v & -> & KF & VF). unfold kvs_data_cmd, val0. rewrite Ew. cbn [as_cstr]. rewrite existsb_app. cbn [existsb]. change (0 =? 0) with true. rewrite orb_true_r. cbn [obind].
    unfold dmsg. cbn [fst snd]. rewrite cstr_fit by (eapply Fit_nz; eauto). unfold into_msg.
    assert (X : zlen (str_data ++ ke_key e ++ [32] ++ v) + 1 <= 100).
    { unfold zlen. rewrite !app_length. cbn [str_data length]. destruct VF as (_ & _ & VF & _). lia. }
    destruct (zlen (str_data ++ ke_key e ++ [32] ++ v) + 1 >? 100) eqn:E'; [lia|reflexivity].
  - assert (Main : forall k w, In (k, w) (map (fun e => (ke_key e, val0 e)) u) <-> look (ks_ent s) k = Some (Some w, true)).
    { intros k w. split.
      - intros Hi. apply in_map_iff in Hi. destruct Hi as (e & E & He). unfold u in He. apply filter_In in He. destruct He as [He Hu]. injection E as <- <-.
        assert (X := HE e He). destruct (H4 _ _ _ X) as (w & Ew & _). rewrite X. unfold val0. rewrite Ew, Hu. auto.
      - intros El. destruct (look_some_in _ _ _ El) as (e & He & Ek). assert (X := HE e He). rewrite Ek, El in X. injection X as X1 X2.
        apply in_map_iff. exists e. unfold val0. rewrite <- X1, Ek. split; auto. unfold u. apply filter_In. auto. }
    split; [exact Main|]. intros k w Hi. apply Main in Hi. destruct (H4 _ _ _ Hi) as (w' & E & F & _ & G). injection E as <-. split; auto.
Qed.
