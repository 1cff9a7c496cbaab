(* Concrete runs of the world resize, for the examples and findings *)
From Coq Require Import ZArith List Bool Lia ZifyBool ZifyNat.
From Verif Require Import Base Model_Space Model_RangeList Model_Partitioner Model_Resize Model_Startup Spec_Resize Proof_Resize1.
Import ListNotations.
Open Scope Z_scope.

Fixpoint nodupb (l : list Z) : bool := match l with [] => true | x :: t => negb (zin x t) && nodupb t end.
Definition requests_fineb (w : list Z) (rs : list req) : bool :=
  nodupb (removals rs) && forallb (fun l => zin l w && negb (l =? 0)) (removals rs) &&
  (match joins rs with [] => true | _ => zlen (removals rs) <=? zlen (joins rs) end).
Definition fineb (n : Z) (log : list (list req)) (s : sys) (ev : event) : bool :=
  let m := s_m s in
  match ev with
  | EvGoM => match s_mpc s with MIn => requests_fineb (fst (world_after n log)) (m_reqs m) | _ => true end
  | EvCut pat => zlen (m_reqs m) + zlen (filter (fun l => (1 <=? l) && pat l) (zcount (d_maxid (m_d m) + 1))) <=? max_reqs
  | EvCallM => zlen (m_reqs m) + zlen (filter (fun fd => is_rr1 (m_fdst m fd)) (zcount max_fds)) <=? max_reqs
  | _ => true
  end.

Lemma nodupb_ok l : nodupb l = true -> NoDup l.
Proof.
  induction l as [|x l IH]; intros H; constructor; simpl in H; apply andb_true_iff in H; destruct H as (A & B); auto.
  intros C. apply zin_In in C. rewrite C in A. discriminate.
Qed.
Lemma fineb_ok n log s ev : fineb n log s ev = true -> fine n log s ev.
Proof.
  unfold fineb, fine. destruct ev; auto; try lia. destruct (s_mpc s); auto. unfold requests_fineb. intros H.
  apply andb_true_iff in H. destruct H as (H & H3). apply andb_true_iff in H. destruct H as (H1 & H2). split; [apply nodupb_ok; auto|]. split.
  - intros l Hl. rewrite forallb_forall in H2. apply H2 in Hl. apply andb_true_iff in Hl. destruct Hl as (A & B). apply zin_In in A. split; auto. lia.
  - destruct (joins (m_reqs (s_m s))); [left; auto|right; lia].
Qed.

(* events one after the other; [chk]: all of them as expected from the outside *)
Fixpoint run (chk : bool) (next junk : Z -> Z) (n : Z) (s : sys) (log : list (list req)) (evs : list event) : option (sys * list (list req)) :=
  match evs with
  | [] => Some (s, log)
  | ev :: t => if chk && negb (fineb n log s ev) then None
               else match exec next junk s ev with
                    | Some (Ok s') => run chk next junk n s' (log ++ handled s ev) t
                    | _ => None
                    end
  end.
Lemma run_reach next junk n regs evs : forall s log s' log', reach next junk n regs s log ->
  run true next junk n s log evs = Some (s', log') -> reach next junk n regs s' log'.
Proof.
  induction evs as [|ev evs IH]; intros s log s' log' HR; simpl; [intros H; injection H as <- <-; auto|].
  destruct (fineb n log s ev) eqn:Ef; [|discriminate]. simpl. destruct (exec next junk s ev) as [[s1| | | |]|] eqn:Ee; try discriminate.
  apply IH. econstructor; eauto. apply fineb_ok; auto.
Qed.

(* steps of the library, in some order, as long as there are any *)
Definition pick (qs : list Z) : list event := flat_map (fun q => [EvDown q; EvUp q; EvGo q]) qs ++ [EvGoM].
Fixpoint settle (fuel : nat) (chk : bool) (next junk : Z -> Z) (n : Z) (qs : list Z) (s : sys) (log : list (list req)) : option (sys * list (list req)) :=
  match fuel with
  | O => None
  | S f => match find (fun ev => match exec next junk s ev with Some _ => true | None => false end) (pick qs) with
           | None => Some (s, log)
           | Some ev => match run chk next junk n s log [ev] with
                        | Some (s', log') => settle f chk next junk n qs s' log'
                        | None => None
                        end
           end
  end.
Lemma settle_reach fuel next junk n regs qs : forall s log s' log', reach next junk n regs s log ->
  settle fuel true next junk n qs s log = Some (s', log') -> reach next junk n regs s' log'.
Proof.
  induction fuel as [|f IH]; intros s log s' log' HR H; cbn [settle] in H; [discriminate|].
  destruct (find _ _) as [ev|]; [|injection H as <- <-; auto].
  destruct (run true next junk n s log [ev]) as [[s1 log1]|] eqn:Er; [|discriminate].
  eapply IH; [|exact H]. eapply run_reach; eauto.
Qed.
(* application events, each followed by [settle] *)
Fixpoint play (chk : bool) (next junk : Z -> Z) (n : Z) (qs : list Z) (s : sys) (log : list (list req)) (evs : list event) : option (sys * list (list req)) :=
  match evs with
  | [] => Some (s, log)
  | ev :: t => match run chk next junk n s log [ev] with
               | Some (s1, log1) => match settle 500 chk next junk n qs s1 log1 with
                                    | Some (s2, log2) => play chk next junk n qs s2 log2 t
                                    | None => None
                                    end
               | None => None
               end
  end.
Lemma play_reach next junk n regs qs evs : forall s log s' log', reach next junk n regs s log ->
  play true next junk n qs s log evs = Some (s', log') -> reach next junk n regs s' log'.
Proof.
  induction evs as [|ev evs IH]; intros s log s' log' HR H; cbn [play] in H; [injection H as <- <-; auto|].
  destruct (run true next junk n s log [ev]) as [[s1 log1]|] eqn:Er; [|discriminate].
  destruct (settle 500 true next junk n qs s1 log1) as [[s2 log2]|] eqn:Es; [|discriminate].
  eapply IH; [|exact H]. eapply settle_reach; [|exact Es]. eapply run_reach; eauto.
Qed.

(* what a process sees: where it is, its epoch, phase, rank, the world; ranks of the world's processes before, and the other way *)
Definition sees (n : nproc) :=
  match d_inst (np_d n) with
  | Some i => let w := i_world i in
      Some (np_pc n, i_epoch i, i_phase i, w_myid w, group_locs (w_size w) (w_mem w),
        match w_parent w with
        | Some p => Some (group_locs (p_size p) (p_mem p),
                          map (fun r => w_mem w (2 * w_max w + r)) (zcount (w_size w)),
                          map (fun r => w_mem w (w_max w + r)) (zcount (p_size p)))
        | None => None
        end)
  | None => None
  end.
(* a process of a state *)
Definition see (r : option (sys * list (list req))) (q : Z) := match r with Some (s, _) => option_map sees (s_n s q) | None => None end.

(* startup: all processes [qs] start, then steps of the library, in some order, as long as there are any *)
Fixpoint trun (junk : Z -> Z) (n : Z) (t : tsys) (regs : list Z) (evs : list tevent) : option (tsys * list Z) :=
  match evs with
  | [] => Some (t, regs)
  | ev :: r => match texec junk n t ev with
               | Some (Ok t') => trun junk n t' (regs ++ registers t ev) r
               | _ => None
               end
  end.
Lemma trun_reach junk n evs : forall t regs t' regs', treach junk n t regs ->
  trun junk n t regs evs = Some (t', regs') -> treach junk n t' regs'.
Proof.
  induction evs as [|ev evs IH]; intros t regs t' regs' HR; simpl; [intros H; injection H as <- <-; auto|].
  destruct (texec junk n t ev) as [[t1| | | |]|] eqn:Ee; try discriminate.
  apply IH. econstructor; eauto.
Qed.
Definition tpick (qs : list Z) : list tevent := flat_map (fun q => [TUp q; TDown q]) qs ++ [TGo].
Fixpoint tsettle (fuel : nat) (junk : Z -> Z) (n : Z) (qs : list Z) (t : tsys) (regs : list Z) : option (tsys * list Z) :=
  match fuel with
  | O => None
  | S f => match find (fun ev => match texec junk n t ev with Some _ => true | None => false end) (tpick qs) with
           | None => Some (t, regs)
           | Some ev => match trun junk n t regs [ev] with
                        | Some (t', regs') => tsettle f junk n qs t' regs'
                        | None => None
                        end
           end
  end.
Lemma tsettle_reach fuel junk n qs : forall t regs t' regs', treach junk n t regs ->
  tsettle fuel junk n qs t regs = Some (t', regs') -> treach junk n t' regs'.
Proof.
  induction fuel as [|f IH]; intros t regs t' regs' HR H; cbn [tsettle] in H; [discriminate|].
  destruct (find _ _) as [ev|]; [|injection H as <- <-; auto].
  destruct (trun junk n t regs [ev]) as [[t1 regs1]|] eqn:Er; [|discriminate].
  eapply IH; [|exact H]. eapply trun_reach; eauto.
Qed.
(* the state when startup is done, and the processes which registered *)
Definition boot (junk : Z -> Z) (n : Z) (qs : list Z) : option (sys * list Z) :=
  match trun junk n tstart [] (map TJoin qs) with
  | Some (t, regs) => match tsettle 500 junk n qs t regs with
                      | Some (t', regs') => match t_pc t' with TDone => Some (t_s t', regs') | _ => None end
                      | None => None
                      end
  | None => None
  end.
Lemma boot_treach junk n qs s regs : boot junk n qs = Some (s, regs) -> exists t, treach junk n t regs /\ t_pc t = TDone /\ t_s t = s.
Proof.
  unfold boot. destruct (trun junk n tstart [] (map TJoin qs)) as [[t r]|] eqn:E1; [|discriminate].
  destruct (tsettle 500 junk n qs t r) as [[t' r']|] eqn:E2; [|discriminate]. destruct (t_pc t') eqn:E3; try discriminate.
  intros H. injection H as <- <-. exists t'. split; auto. eapply tsettle_reach; [|exact E2]. eapply trun_reach; [|exact E1]. constructor.
Qed.
Lemma boot_reach next junk n qs s regs : boot junk n qs = Some (s, regs) -> reach next junk n regs s [].
Proof. intros H. destruct (boot_treach _ _ _ _ _ H) as (t & A & B & <-). apply reach_start; auto. Qed.
(* startup with the processes [qs], then application events *)
Definition boot_play (chk : bool) (next junk : Z -> Z) (n : Z) (qs more : list Z) (evs : list event) : option (sys * list (list req)) :=
  match boot junk n qs with
  | Some (s, _) => play chk next junk n (qs ++ more) s [] evs
  | None => None
  end.
Lemma boot_play_reach next junk n qs more evs s log :
  boot_play true next junk n qs more evs = Some (s, log) ->
  exists s0 regs, boot junk n qs = Some (s0, regs) /\ reach next junk n regs s log.
Proof.
  unfold boot_play. destruct (boot junk n qs) as [[s0 regs]|] eqn:E; [|discriminate]. intros H. exists s0, regs. split; auto.
  eapply play_reach; [|exact H]. eapply boot_reach; eauto.
Qed.
