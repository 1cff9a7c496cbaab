(* Model of src/backend-tcp2.c:2385-2469 (tcp2_sync) and 1311-1392 (the commands used by it), and of
   laik_kvs_sync (kvs.c:445-465) calling it, for all processes of a world and any number of
   synchronisations of one store. Messages are the commands as bytes without the newline at the end:
   how commands are found in the byte stream is in Model_Tcp2.v (C51). Not modelled: log output,
   callbacks of stores, connections, messages of other kinds, further stores, joining of processes. *)
From Coq Require Import ZArith List Bool.
From Verif Require Import Base Model_RangeList Model_KVS Model_SpaceStore Model_Tcp2 Model_Switch Spec_KVS.
Import ListNotations.
Open Scope Z_scope.

(* "kvs allow ", "kvs changes ", "kvs data " *)
Definition str_allow : list Z := [107; 118; 115; 32; 97; 108; 108; 111; 119; 32].
Definition str_changes : list Z := [107; 118; 115; 32; 99; 104; 97; 110; 103; 101; 115; 32].
Definition str_data : list Z := [107; 118; 115; 32; 100; 97; 116; 97; 32].

(* sprintf into char msg[100] (2387): writing behind its end is undefined *)
Definition into_msg (l : list Z) : outcome (list Z) := if zlen l + 1 >? 100 then UB else Ok l.
(* 2438 *)
Definition kvs_allow_cmd (name : list Z) : outcome (list Z) := into_msg (str_allow ++ name).
(* 2411, 2455 *)
Definition kvs_changes_cmd (n : Z) : outcome (list Z) := into_msg (str_changes ++ print_dec n).
(* %s for the value of an entry: undefined for NULL (removed entry), or without zero at the end *)
Definition as_cstr (v : option (list Z)) : outcome (list Z) :=
  match v with
  | None => UB
  | Some b => if existsb (fun c => c =? 0) b then Ok (cstr b) else UB
  end.
(* 2415-2416, 2460-2461 *)
Definition kvs_data_cmd (key : list Z) (v : option (list Z)) : outcome (list Z) :=
  do s <- as_cstr v; into_msg (str_data ++ key ++ [32] ++ s).

(* A process: what is left of its program; where it is in tcp2_sync; its store; and of struct InstData
   (299-302): is kvs set, kvs_name, kvs_changes, kvs_received *)
Inductive sphase :=
| PUser                  (* not in tcp2_sync *)
| PAllow                 (* 2406-2407 waiting for permission *)
| PData                  (* 2427-2428 waiting for the changes of LID 0 *)
| PGather (lid : Z).     (* 2444-2445 LID 0 waiting for the changes of [lid] *)
Record sproc := mkSq { sq_prog : list kstep; sq_ph : sphase; sq_st : store; sq_kvs : bool; sq_name : option (list Z); sq_chg : Z; sq_rcv : Z }.

(* ---------- sending ---------- *)

(* 2390-2394, 2411-2418 and 2449-2464: the commands with all changes in the store *)
Definition upd_cmds (s : store) : outcome (list (list Z)) :=
  let u := filter ke_upd (ks_ent s) in
  do c <- kvs_changes_cmd (zlen u);
  do d <- omapm (fun e => kvs_data_cmd (ke_key e) (ke_val e)) u;
  Ok (c :: d).

Section Sync.
Variable name : list Z.                       (* name of the store *)
Variable q : list kentry -> list kentry.      (* qsort *)
Variable N : Z.                               (* number of processes; maxid is N - 1 *)

(* 2427, 2444 *)
Definition waits (x : sproc) : bool := (sq_chg x <? 0) || (sq_rcv x <? sq_chg x).
Definition same_name (n : list Z) : bool := str_cmp n name =? 0.

(* 2467/2431 and the rest of laik_kvs_sync *)
Definition sync_leave (x : sproc) (s : store) : outcome sproc :=
  do s' <- sync_end q s; Ok (mkSq (sq_prog x) PUser s' false (sq_name x) (sq_chg x) (sq_rcv x)).

(* 2436-2468 LID 0 goes on with [lid]. Result: state, messages sent (receiver, message) *)
Definition ask (lid : Z) (x : sproc) : outcome (sproc * list (Z * list Z)) :=
  if lid <? N then
    do c <- kvs_allow_cmd name;
    Ok (mkSq (sq_prog x) (PGather lid) (sq_st x) (sq_kvs x) (sq_name x) (-1) 0, [(lid, c)])
  else
    do ms <- upd_cmds (sq_st x);
    do x' <- sync_leave x (sq_st x);
    Ok (x', flat_map (fun m => map (fun l => (Z.of_nat l, m)) (seq 1 (Z.to_nat (N - 1)))) ms).

(* Process [p] runs until it waits again; None: it still has to wait, or its program is done *)
Definition go (p : Z) (x : sproc) : outcome (option (sproc * list (Z * list Z))) :=
  match sq_ph x with
  | PUser =>
    match sq_prog x with
    | [] => Ok None
    | SOp o :: r =>
      do s <- exec_op q (sq_st x) o;
      Ok (Some (mkSq r PUser s (sq_kvs x) (sq_name x) (sq_chg x) (sq_rcv x), []))
    | SSync :: r =>
      cassert (negb (sq_kvs x)) (
      cassert (match sq_name x with Some n => same_name n | None => true end) (
      let ph := if p >? 0 then PAllow else PUser in
      let x1 := mkSq r ph (sync_begin (sq_st x)) true (sq_name x) (sq_chg x) (sq_rcv x) in
      if p >? 0 then Ok (Some (x1, [])) else do y <- ask 1 x1; Ok (Some y)))
    end
  | PAllow =>
    match sq_name x with
    | None => Ok None
    | Some n =>
      cassert (same_name n) (
      do ms <- upd_cmds (sq_st x);
      Ok (Some (mkSq (sq_prog x) PData (sq_st x) (sq_kvs x) None (-1) 0, map (fun m => (0, m)) ms)))
    end
  | PData => if waits x then Ok None else do y <- sync_leave x (sq_st x); Ok (Some (y, []))
  | PGather lid => if waits x then Ok None else do y <- ask (lid + 1) x; Ok (Some y)
  end.

(* ---------- receiving ---------- *)

(* 1311-1330 got_kvs_allow. Scanning writes at most 29 characters and a zero *)
Definition got_kvs_allow (lid : Z) (x : sproc) (msg : list Z) : outcome sproc :=
  if negb (lid =? 0) then Ok x else
  match scan_word 20 msg with
  | None => Ok x
  | Some (_, l1) =>
    match scan_word 29 l1 with
    | None => Ok x
    | Some (n, _) =>
      cassert (match sq_name x with None => true | Some _ => false end)
      (Ok (mkSq (sq_prog x) (sq_ph x) (sq_st x) (sq_kvs x) (Some n) (sq_chg x) (sq_rcv x)))
    end
  end.

(* 1332-1348 got_kvs_changes; d->kvs->name is used for a log message (1342) *)
Definition got_kvs_changes (x : sproc) (msg : list Z) : outcome sproc :=
  match scan_word 20 msg with
  | None => Ok x
  | Some (_, l1) =>
    match scan_dec l1 with
    | None => Ok x
    | Some (n, _) =>
      if negb (sq_kvs x) then UB else
      cassert (sq_chg x =? -1) (cassert (sq_rcv x =? 0)
      (Ok (mkSq (sq_prog x) (sq_ph x) (sq_st x) (sq_kvs x) (sq_name x) (as_int n) (sq_rcv x))))
    end
  end.

(* conversion %100[^\n] (with [n] = 100) *)
Fixpoint take_line (n : nat) (l : list Z) : list Z :=
  match n, l with
  | S n', c :: l' => if c =? 10 then [] else c :: take_line n' l'
  | _, _ => []
  end.

(* 1363-1366: laik_kvs_sets returns the entry of the key *)
Definition set_updated (s : store) (key v : list Z) : outcome store :=
  do s1 <- kvs_sets s key v;
  do r <- kvs_entry s1 key;
  match r with
  | None => UB
  | Some i => match nth_error (ks_ent s1) i with
              | None => UB
              | Some e => Ok (put_entry s1 i (mkKe (ke_key e) (ke_val e) true))
              end
  end.

(* 1350-1371 got_kvs_data *)
Definition got_kvs_data (x : sproc) (msg : list Z) : outcome sproc :=
  match scan_word 20 msg with
  | None => Ok x
  | Some (_, l1) =>
    match scan_word 30 l1 with
    | None => Ok x
    | Some (key, l2) =>
      match take_line 100 (skip_space l2) with
      | [] => Ok x
      | v =>
        cassert (sq_kvs x) (cassert (sq_chg x >? 0) (cassert (sq_rcv x <? sq_chg x) (
        do s <- set_updated (sq_st x) key v;
        Ok (mkSq (sq_prog x) (sq_ph x) s (sq_kvs x) (sq_name x) (sq_chg x) (sq_rcv x + 1)))))
      end
    end
  end.

(* 1377-1380 *)
Definition skip1 (c : Z) (l : list Z) : list Z := match l with d :: r => if d =? c then r else l | [] => [] end.
(* 1374-1392 got_kvs *)
Definition got_kvs (lid : Z) (x : sproc) (msg : list Z) : outcome sproc :=
  let m := skip1 32 (skip1 115 (skip1 118 (tl msg))) in
  match m with
  | [] => Ok x
  | c :: _ => if c =? 97 then got_kvs_allow lid x m
              else if c =? 99 then got_kvs_changes x m
              else if c =? 100 then got_kvs_data x m
              else Ok x
  end.

(* ---------- all processes ---------- *)

(* the processes, and the messages sent by [a] to [b] which are not yet handled *)
Record snet := mkSn { sn_proc : Z -> sproc; sn_wire : Z -> Z -> list (list Z) }.
Definition supd {A} (f : Z -> A) (p : Z) (v : A) : Z -> A := fun r => if r =? p then v else f r.
Definition supd2 {A} (f : Z -> Z -> A) (a b : Z) (v : A) : Z -> Z -> A := fun p r => if (p =? a) && (r =? b) then v else f p r.
(* write messages, in order *)
Definition post (p : Z) (ms : list (Z * list Z)) (w : Z -> Z -> list (list Z)) : Z -> Z -> list (list Z) :=
  fold_left (fun w m => supd2 w p (fst m) (w p (fst m) ++ [snd m])) ms w.

(* A step of a process: it runs until it waits again, or it handles the next message of process
   [r] in its event loop. Messages may be handled at any time: also before the process synchronises
   (in event loops of other functions), and when there is nothing to wait for any more (run_loop handles all
   messages which arrived). *)
Inductive sact := Go | Msg (r : Z).
Definition sstep (s : snet) (p : Z) (a : sact) : outcome (option snet) :=
  match a with
  | Go => do y <- go p (sn_proc s p);
          match y with
          | None => Ok None
          | Some (x, ms) => Ok (Some (mkSn (supd (sn_proc s) p x) (post p ms (sn_wire s))))
          end
  | Msg r => match sn_wire s r p with
             | [] => Ok None
             | m :: w => do x <- got_kvs r (sn_proc s p) m; Ok (Some (mkSn (supd (sn_proc s) p x) (supd2 (sn_wire s) r p w)))
             end
  end.
(* steps in some order; if a step is not possible, nothing happens *)
Fixpoint srun (s : snet) (sched : list (Z * sact)) : outcome snet :=
  match sched with
  | [] => Ok s
  | (p, a) :: r => do x <- sstep s p a; srun (match x with Some s' => s' | None => s end) r
  end.
(* all processes finished their programs *)
Definition sdone (s : snet) : bool :=
  forallb (fun p => let x := sn_proc s (Z.of_nat p) in
                    match sq_prog x, sq_ph x with [], PUser => true | _, _ => false end) (seq 0 (Z.to_nat N)).
(* new stores (kvs.c:292-313), tcp2_init (1731-1734) *)
Definition snet_start (prog : Z -> list kstep) : outcome snet :=
  do s <- kvs_new; Ok (mkSn (fun p => mkSq (prog p) PUser s false None 0 0) (fun _ _ => [])).
End Sync.
