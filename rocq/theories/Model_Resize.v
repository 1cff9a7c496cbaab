(* Model of the world resize: laik_allow_world_resize / laik_finish_world_resize
   (src/core.c) with the protocol of the TCP2 backend (src/backend-tcp2.c): one master
   (location ID 0), any number of further processes, a FIFO connection from the master to
   every other process and one back.
   Simplifications common to the file: a peer's location, host, port and flags are reduced
   to the fact that they are known ([d_loc]); a process is named by the file descriptor
   the master has for it; connections do not break (no PS_Error) and stay open; commands
   are modelled as parsed; sending never blocks. *)
From Coq Require Import ZArith List Bool Lia.
From Verif Require Import Base Model_Space Model_RangeList Model_Partitioner.
Import ListNotations.
Open Scope Z_scope.

(* backend-tcp2.c:210-234 PeerState, without PS_CutoffReceived, PS_RegFinished and the
   startup states *)
Inductive pstate :=
| PsInvalid | PsUnknown | PsBeforeReg | PsRegReceived | PsRegReceived2 | PsRegAccepted
| PsRegFinishing | PsNoConnect | PsReady | PsReadyRemove | PsDead | PsError
| PsInResize | PsInResize1 | PsInResize2 | PsInResize3
| PsInResizeRemove | PsInResizeRemove2 | PsInResizeRemove3.

(* backend-tcp2.c:182-183 *)
Definition max_peers : Z := 256.
Definition max_fds : Z := 256.

(* core.c:286-321 the arrays of a group: [w_max] entries each of locationid, fromParent,
   toParent, fromParent2, toParent2, one after the other in memory *)
Record pgrp := mkPg { p_size : Z; p_myid : Z; p_mem : Z -> Z }.
Record wgrp := mkWg { w_max : Z; w_size : Z; w_myid : Z; w_mem : Z -> Z; w_parent : option pgrp }.

Definition setz {A} (f : Z -> A) (k : Z) (v : A) : Z -> A := fun x => if x =? k then v else f x.

(* a write / read within the memory block of a group with maxsize [max] *)
Definition gput (max : Z) (mem : Z -> Z) (off v : Z) : outcome (Z -> Z) :=
  if (0 <=? off) && (off <? 5 * max) then Ok (setz mem off v) else UB.
Definition gget (max : Z) (mem : Z -> Z) (off : Z) : outcome Z :=
  if (0 <=? off) && (off <? 5 * max) then Ok (mem off) else UB.

(* laik-internal.h struct _Laik_Instance, the members used here *)
Record inst := mkInst { i_epoch : Z; i_phase : Z; i_locations : Z; i_world : wgrp }.

(* backend-tcp2.c:280-309 struct _InstData, with Peer 238-263, the members of all processes *)
Record node := mkNode {
  d_lid : Z; d_st : pstate; d_peer : Z -> pstate; d_loc : Z -> bool;
  d_maxid : Z; d_peers : Z; d_phase : Z; d_epoch : Z; d_inst : option inst }.

Definition set_peer (d : node) (l : Z) (s : pstate) : node :=
  mkNode (d_lid d) (d_st d) (setz (d_peer d) l s) (d_loc d) (d_maxid d) (d_peers d) (d_phase d) (d_epoch d) (d_inst d).
Definition set_st (d : node) (s : pstate) : node :=
  mkNode (d_lid d) s (d_peer d) (d_loc d) (d_maxid d) (d_peers d) (d_phase d) (d_epoch d) (d_inst d).
Definition set_peers (d : node) (p : Z -> pstate) : node :=
  mkNode (d_lid d) (d_st d) p (d_loc d) (d_maxid d) (d_peers d) (d_phase d) (d_epoch d) (d_inst d).
Definition set_inst (d : node) (i : inst) : node :=
  mkNode (d_lid d) (d_st d) (d_peer d) (d_loc d) (d_maxid d) (d_peers d) (d_phase d) (d_epoch d) (Some i).
Definition set_dphase (d : node) (p : Z) : node :=
  mkNode (d_lid d) (d_st d) (d_peer d) (d_loc d) (d_maxid d) (d_peers d) p (d_epoch d) (d_inst d).

(* commands, backend-tcp2.c:1473-1518 *)
Inductive msg :=
| MRegister | MId (lid : Z) | MNewId (lid : Z) | MBackedout (lid : Z) | MGetready | MOk
| MPhase (phase epoch : Z) | MEnter (phase epoch : Z).

(** Handlers of a process which is not the master; the sender is the master (LID 0) *)

(* backend-tcp2.c:1117-1205 got_id *)
Definition got_id (newid : bool) (lid : Z) (d : node) : outcome node :=
  cassert ((0 <=? lid) && (lid <? max_peers)) (
  let mx := if d_maxid d <? lid then lid else d_maxid d in
  if d_lid d <? 0 then
    Ok (mkNode lid PsRegAccepted (setz (d_peer d) lid PsRegAccepted) (setz (d_loc d) lid true)
          mx (d_peers d) (d_phase d) (d_epoch d) (d_inst d))
  else
    cassert (negb (lid =? d_lid d)) (
    cassert (negb (d_loc d lid)) (
    do s <- match d_st d with
            | PsRegAccepted => Ok (if newid then PsNoConnect else PsInResize)
            | PsInResize => cassert newid (Ok PsNoConnect)
            | _ => Panic
            end;
    Ok (mkNode (d_lid d) (d_st d) (setz (d_peer d) lid s) (setz (d_loc d) lid true)
          mx (d_peers d + 1) (d_phase d) (d_epoch d) (d_inst d))))).

(* backend-tcp2.c:1207-1228 got_phase *)
Definition got_phase (p e : Z) (d : node) : node :=
  mkNode (d_lid d) (d_st d) (d_peer d) (d_loc d) (d_maxid d) (d_peers d) p e (d_inst d).

(* backend-tcp2.c:1255-1290 got_backedout; laik_log(LAIK_LL_Panic) ends the process *)
Definition got_backedout (lid : Z) (d : node) : outcome node :=
  match d_st d with
  | PsRegAccepted | PsInResize | PsInResizeRemove =>
    cassert ((0 <? lid) && (lid <=? d_maxid d)) (
    match d_peer d lid with
    | PsInResize | PsReady =>
      let d1 := set_peer d lid PsInResizeRemove in
      Ok (if d_lid d =? lid then set_st d1 PsInResizeRemove else d1)
    | _ => Abort
    end)
  | _ => Panic
  end.

(* backend-tcp2.c:1392-1430 got_getready: new state and the commands sent to the master *)
Definition got_getready (d : node) : node * list msg :=
  let ready s := (set_peer (set_st d s) (d_lid d) s, [MOk]) in
  match d_st d with
  | PsRegAccepted => ready PsReady
  | PsInResize => ready PsReady
  | PsInResizeRemove => ready PsReadyRemove
  | _ => (d, [])
  end.

(* backend-tcp2.c:1473-1518 got_cmd in a process which is not the master; commands which
   are only for the master are never sent to it: an outcome of its own *)
Definition node_cmd (m : msg) (d : node) : outcome (node * list msg) :=
  match m with
  | MId l => omap (fun d' => (d', [])) (got_id false l d)
  | MNewId l => omap (fun d' => (d', [])) (got_id true l d)
  | MBackedout l => omap (fun d' => (d', [])) (got_backedout l d)
  | MGetready => Ok (got_getready d)
  | MPhase p e => Ok (got_phase p e d, [])
  | _ => Abort
  end.

(** The master *)

(* core.c:596-631 and struct _Laik_ResizeRequests: join requests hold the file descriptor,
   removal requests the peer, here its location ID *)
Inductive req := RJoin (fd : Z) | RRemove (lid : Z).

(* backend-tcp2.c:280-309 with the members used by the master only, and
   instance->resizeRequests. [m_fdst], [m_fdlid]: state and lid of struct _FDState; [m_pfd]:
   fd of struct _Peer *)
Record master := mkMaster {
  m_d : node; m_ready : Z; m_dead : Z; m_fdst : Z -> pstate; m_fdlid : Z -> Z; m_pfd : Z -> Z;
  m_reqs : list req }.
Definition m_setd (m : master) (d : node) : master :=
  mkMaster d (m_ready m) (m_dead m) (m_fdst m) (m_fdlid m) (m_pfd m) (m_reqs m).
Definition m_setfdst (m : master) (f : Z -> pstate) : master :=
  mkMaster (m_d m) (m_ready m) (m_dead m) f (m_fdlid m) (m_pfd m) (m_reqs m).
Definition m_setreqs (m : master) (r : list req) : master :=
  mkMaster (m_d m) (m_ready m) (m_dead m) (m_fdst m) (m_fdlid m) (m_pfd m) r.

(* core.c:607-631 laik_add_resize_req: the list has space for 100 *)
Definition max_reqs : Z := 100.
Definition add_req (m : master) (r : req) : outcome master :=
  cassert (Z.of_nat (length (m_reqs m)) <? max_reqs) (Ok (m_setreqs m (m_reqs m ++ [r]))).

(* backend-tcp2.c:882-917 got_register, accepted. The assert on the port being unset is the
   one on the location being unset (both are set together). *)
Definition accept_fd (m : master) (fd : Z) : outcome (master * list (Z * msg)) :=
  let d := m_d m in
  let lid := d_maxid d + 1 in
  cassert (lid <? max_peers) (
  cassert (negb (d_loc d lid)) (
  let d' := mkNode (d_lid d) (d_st d) (setz (d_peer d) lid PsRegAccepted) (setz (d_loc d) lid true)
              lid (d_peers d + 1) (d_phase d) (d_epoch d) (d_inst d) in
  Ok (mkMaster d' (m_ready m) (m_dead m) (m_fdst m) (setz (m_fdlid m) fd lid) (setz (m_pfd m) lid fd) (m_reqs m),
      [(fd, MId lid)]))).

(* backend-tcp2.c:826-852 got_register: outside of startup and request processing, the
   command is kept; fds[fd].cmd is set exactly in the states RegReceived and RegReceived2
   before a location ID is given *)
Definition got_register (m : master) (fd : Z) : outcome (master * list (Z * msg)) :=
  if 0 <=? m_fdlid m fd then Ok (m, [])
  else match d_st (m_d m) with
       | PsInResize1 => accept_fd m fd
       | _ => match m_fdst m fd with
              | PsRegReceived | PsRegReceived2 => Abort
              | _ => Ok (m_setfdst m (setz (m_fdst m) fd PsRegReceived), [])
              end
       end.

(* backend-tcp2.c:1230-1253 got_enterresize *)
Definition got_enterresize (m : master) (lid : Z) : outcome master :=
  cassert ((0 <=? lid) && (lid <? max_peers)) (
  match d_peer (m_d m) lid with
  | PsReady => Ok (m_setd m (set_peer (m_d m) lid PsInResize))
  | _ => Abort
  end).

(* backend-tcp2.c:1432-1467 got_ok *)
Definition got_ok (m : master) (lid : Z) : master :=
  let put s := m_setd m (set_peer (m_d m) lid s) in
  match d_peer (m_d m) lid with
  | PsRegFinishing =>
    let m' := put PsReady in
    mkMaster (m_d m') (m_ready m' + 1) (m_dead m') (m_fdst m') (m_fdlid m') (m_pfd m') (m_reqs m')
  | PsInResizeRemove2 => put PsInResizeRemove3
  | PsInResize2 => put PsInResize3
  | _ => m
  end.

(* backend-tcp2.c:1473-1518 got_cmd in the master for a command from file descriptor [fd] *)
Definition master_cmd (m : master) (fd : Z) (c : msg) : outcome (master * list (Z * msg)) :=
  match c with
  | MRegister => got_register m fd
  | _ =>
    let lid := m_fdlid m fd in
    if lid <? 0 then Ok (m, []) (* ignored, "first register" *)
    else match c with
         | MEnter _ _ => omap (fun m' => (m', [])) (got_enterresize m lid)
         | MOk => Ok (got_ok m lid, [])
         | _ => Ok (m, []) (* id, phase: ignored as master; others are not sent to it *)
         end
  end.

(* backend-tcp2.c:961-1020 got_cutoff; [pat]: whether the pattern matches the location of a
   process. All location strings start with L<lid>:, so any set of processes is possible. *)
Definition cut_step (pat : Z -> bool) (m : master) (lid : Z) : outcome master :=
  match d_peer (m_d m) lid with
  | PsDead | PsRegAccepted | PsRegReceived | PsRegReceived2 => Ok m
  | _ => if pat lid then (if lid =? 0 then Ok m else add_req m (RRemove lid)) else Ok m
  end.
Definition got_cutoff (pat : Z -> bool) (m : master) : outcome master :=
  ofold (cut_step pat) (zcount (d_maxid (m_d m) + 1)) m.

(* backend-tcp2.c:2470-2496 tcp2_make_progress after check_loop; check_loop is any number of
   commands handled before *)
Definition collect_step (m : master) (fd : Z) : outcome master :=
  match m_fdst m fd with
  | PsRegReceived => add_req (m_setfdst m (setz (m_fdst m) fd PsRegReceived2)) (RJoin fd)
  | _ => Ok m
  end.
Definition make_progress (m : master) : outcome master := ofold collect_step (zcount max_fds) m.

(** The steps of laik_allow_world_resize *)

(* backend-tcp2.c:2498-2516 tcp2_finish_resize: states of peers 1..maxid, and how many
   become dead *)
Definition finish_peers (d : node) : (Z -> pstate) :=
  fun l => if (1 <=? l) && (l <=? d_maxid d)
           then match d_peer d l with PsReadyRemove => PsDead | s => s end
           else d_peer d l.
Definition is_rr (s : pstate) : bool := match s with PsReadyRemove => true | _ => false end.
Definition marked (d : node) : Z :=
  Z.of_nat (length (filter (fun l => (1 <=? l) && is_rr (d_peer d l)) (zcount (d_maxid d + 1)))).

Definition clear_parent (i : inst) : inst :=
  let w := i_world i in
  mkInst (i_epoch i) (i_phase i) (i_locations i) (mkWg (w_max w) (w_size w) (w_myid w) (w_mem w) None).

(* core.c:583-594 laik_finish_world_resize, any process; an instance must exist *)
Definition finish_node (d : node) : outcome node :=
  match d_inst d with
  | None => UB
  | Some i => match w_parent (i_world i) with
              | None => Ok d
              | Some _ => Ok (set_inst (set_peers d (finish_peers d)) (clear_parent i))
              end
  end.
Definition finish_master (m : master) : outcome master :=
  match d_inst (m_d m) with
  | None => UB
  | Some i => match w_parent (i_world i) with
              | None => Ok m
              | Some _ =>
                let k := marked (m_d m) in
                do d <- finish_node (m_d m);
                Ok (mkMaster d (m_ready m - k) (m_dead m + k) (m_fdst m) (m_fdlid m) (m_pfd m) (m_reqs m))
              end
  end.

(* core.c:537 instance->phase = phase *)
Definition set_phase (p : Z) (d : node) : outcome node :=
  match d_inst d with
  | None => UB
  | Some i => Ok (set_inst d (mkInst (i_epoch i) p (i_locations i) (i_world i)))
  end.

(* backend-tcp2.c:2523-2533: [None] if this process is no longer part of the world *)
Definition enter_resize (d : node) : outcome (option node) :=
  match d_inst d with
  | None => UB
  | Some i =>
    match w_parent (i_world i) with
    | Some _ => Abort
    | None =>
      match d_st d with
      | PsReadyRemove => Ok None
      | PsReady => Ok (Some (set_st (set_peer d (d_lid d) PsInResize) PsInResize))
      | _ => Abort
      end
    end
  end.

(* core.c:535-548 and backend-tcp2.c:2523-2546: the call in a process other than the master, up
   to the wait. Result: the node, and whether it waits, with the commands sent *)
Definition node_call (p : Z) (d : node) : outcome (node * bool * list msg) :=
  do d1 <- set_phase p d;
  do d2 <- finish_node d1;
  do r <- enter_resize d2;
  match r with
  | None => Ok (d2, false, [])
  | Some d3 =>
    match d_inst d3 with
    | None => UB
    | Some i => Ok (set_dphase d3 (-1), true, [MEnter (i_phase i) (i_epoch i)])
    end
  end.

(* state of the loops which create the new group: index in parent, index in new group,
   memory of the new group, peer states *)
Record gb := mkGb { b_i1 : Z; b_i2 : Z; b_mem : Z -> Z; b_peer : Z -> pstate }.

(* backend-tcp2.c:2580-2588 and 2772-2783: in both groups *)
Definition gb_keep (w : wgrp) (max : Z) (lid : Z) (s : pstate) (b : gb) : outcome gb :=
  do x <- gget (w_max w) (w_mem w) (b_i1 b);
  cassert (x =? lid) (
  do m1 <- gput max (b_mem b) (b_i2 b) lid;
  do m2 <- gput max m1 (2 * max + b_i2 b) (b_i1 b);
  do m3 <- gput max m2 (max + b_i1 b) (b_i2 b);
  Ok (mkGb (b_i1 b + 1) (b_i2 b + 1) m3 (setz (b_peer b) lid s))).
(* backend-tcp2.c:2589-2595 and 2784-2790: only in the new group *)
Definition gb_add (max : Z) (lid : Z) (b : gb) : outcome gb :=
  do m1 <- gput max (b_mem b) (b_i2 b) lid;
  do m2 <- gput max m1 (2 * max + b_i2 b) (-1);
  Ok (mkGb (b_i1 b) (b_i2 b + 1) m2 (setz (b_peer b) lid PsReady)).
(* backend-tcp2.c:2596-2603 and 2791-2798: only in the parent *)
Definition gb_drop (w : wgrp) (max : Z) (lid : Z) (b : gb) : outcome gb :=
  do x <- gget (w_max w) (w_mem w) (b_i1 b);
  cassert (x =? lid) (
  do m1 <- gput max (b_mem b) (max + b_i1 b) (-1);
  Ok (mkGb (b_i1 b + 1) (b_i2 b) m1 (setz (b_peer b) lid PsReadyRemove))).

(* backend-tcp2.c:2577-2607 *)
Definition leave_step (w : wgrp) (max : Z) (b : gb) (lid : Z) : outcome gb :=
  match b_peer b lid with
  | PsDead => Ok b
  | PsReady => gb_keep w max lid PsReady b
  | PsNoConnect => gb_add max lid b
  | PsInResizeRemove | PsReadyRemove => gb_drop w max lid b
  | _ => Abort
  end.

(* backend-tcp2.c:2549-2564: whether there is any change *)
Definition count_step (d : node) (c : Z) (lid : Z) : outcome Z :=
  match d_peer d lid with
  | PsNoConnect | PsInResizeRemove | PsReadyRemove => Ok (c + 1)
  | PsDead | PsReady => Ok c
  | _ => Abort
  end.

(* backend-tcp2.c:2608-2615, 2801-2804, core.c:346-357 laik_set_world and core.c:574-577: the
   new group [g] of size [size] becomes the world. [junk]: contents of the memory from malloc. *)
Definition new_world (max size : Z) (mem : Z -> Z) (locs : Z) (i : inst) : outcome inst :=
  let w := i_world i in
  do my <- gget max mem (max + w_myid w);
  Ok (mkInst (i_epoch i + 1) (i_phase i) locs
        (mkWg max size my mem (Some (mkPg (w_size w) (w_myid w) (w_mem w))))).

(* backend-tcp2.c:2549-2616: a process other than the master after the wait *)
Definition node_leave (junk : Z -> Z) (d : node) : outcome node :=
  match d_inst d with
  | None => UB
  | Some i =>
    let w := i_world i in
    do c <- ofold (count_step d) (zcount (d_maxid d + 1)) 0;
    if c =? 0 then
      match d_peer d (d_lid d), d_st d with
      | PsReady, PsReady => Ok d
      | _, _ => Abort
      end
    else
      let max := d_maxid d + 1 in
      do b <- ofold (leave_step w max) (zcount max) (mkGb 0 0 junk (d_peer d));
      cassert (w_size w =? b_i1 b) (
      do i' <- new_world max (b_i2 b) (b_mem b) max i;
      Ok (set_inst (set_st (set_peers d (b_peer b)) (b_peer b (d_lid d))) i'))
  end.

(* core.c:535-548, backend-tcp2.c:2470-2496, 2523-2537: the call in the master, up to the
   wait *)
Definition master_call (p : Z) (m : master) : outcome master :=
  do d1 <- set_phase p (m_d m);
  do m1 <- finish_master (m_setd m d1);
  do m2 <- make_progress m1;
  do r <- enter_resize (m_d m2);
  match r with
  | None => Abort (* not reachable: the master is never removed *)
  | Some d3 => Ok (m_setd m2 d3)
  end.

Definition is_ready (s : pstate) : bool := match s with PsReady => true | _ => false end.

(* backend-tcp2.c:2622-2632: whether the master waits; afterwards no other states than these
   may be there. (In the code, the check of a process and the wait for the next one alternate.) *)
Definition waits_in (m : master) : bool :=
  existsb (fun l => (1 <=? l) && is_ready (d_peer (m_d m) l)) (zcount (d_maxid (m_d m) + 1)).
Definition check_in (m : master) : bool :=
  forallb (fun l => (l <? 1) || match d_peer (m_d m) l with PsDead | PsInResize | PsError => true | _ => false end)
    (zcount (d_maxid (m_d m) + 1)).

(* backend-tcp2.c:2639-2662: one request *)
Definition req_step (s : master * list (Z * msg)) (r : req) : outcome (master * list (Z * msg)) :=
  let '(m, out) := s in
  match r with
  | RJoin fd =>
    match m_fdst m fd with
    | PsRegReceived2 =>
      cassert (m_fdlid m fd <? 0) (
      do r <- got_register m fd;
      Ok (fst r, out ++ snd r))
    | _ => Abort
    end
  | RRemove lid =>
    match d_peer (m_d m) lid with
    | PsInResize => Ok (m_setd m (set_peer (m_d m) lid PsInResizeRemove), out)
    | _ => Abort
    end
  end.

Definition is_acc (s : pstate) : bool := match s with PsRegAccepted => true | _ => false end.
Definition is_rem (s : pstate) : bool := match s with PsInResizeRemove => true | _ => false end.
Definition is_dead (s : pstate) : bool := match s with PsDead => true | _ => false end.

(* backend-tcp2.c:2669-2674 *)
Definition count_acc (d : node) : Z :=
  Z.of_nat (length (filter (fun l => (1 <=? l) && is_acc (d_peer d l)) (zcount (d_maxid d + 1)))).
Definition count_rem (d : node) : Z :=
  Z.of_nat (length (filter (fun l => (1 <=? l) && is_rem (d_peer d l)) (zcount (d_maxid d + 1)))).

(* backend-tcp2.c:2676-2726: the commands for the process with location ID [to], in the order
   of sending. (The code sends each command to all processes; per connection, the order is
   this one.) *)
Definition round_msgs (d : node) (to : Z) : list msg :=
  let lids := zcount (d_maxid d + 1) in
  (if is_acc (d_peer d to)
   then map MId (filter (fun l => negb (is_dead (d_peer d l)) && negb (is_acc (d_peer d l))) lids) else [])
  ++ map MNewId (filter (fun l => is_acc (d_peer d l) && negb (l =? to)) lids)
  ++ map MBackedout (filter (fun l => is_rem (d_peer d l)) lids)
  ++ [MGetready].

(* backend-tcp2.c:2714-2727: states after sending getready *)
Definition getready_step (d : node) (l : Z) : outcome node :=
  match d_peer d l with
  | PsDead => Ok d
  | PsRegAccepted => Ok (set_peer d l PsRegFinishing)
  | PsInResize => Ok (set_peer d l PsInResize2)
  | PsInResizeRemove => Ok (set_peer d l PsInResizeRemove2)
  | _ => Abort
  end.

(* backend-tcp2.c:2634-2727: the master after the first wait. Result: the master, the values
   of added and to_remove, and the commands sent, by file descriptor *)
Definition master_mid (m : master) : outcome (master * Z * Z * list (Z * msg)) :=
  cassert (check_in m) (
  do s <- ofold req_step (m_reqs m) (m_setd m (set_st (m_d m) PsInResize1), []);
  let '(m1, out) := s in
  let d1 := set_st (m_d m1) PsInResize2 in
  let m2 := m_setreqs (m_setd m1 d1) [] in
  let tos := filter (fun l => (1 <=? l) && negb (is_dead (d_peer d1 l))) (zcount (d_maxid d1 + 1)) in
  let out2 := flat_map (fun to => map (fun c => (m_pfd m2 to, c)) (round_msgs d1 to)) tos in
  do d2 <- ofold getready_step (filter (fun l => 1 <=? l) (zcount (d_maxid d1 + 1))) d1;
  Ok (m_setd m2 d2, count_acc d1, count_rem d1, out ++ out2)).

(* backend-tcp2.c:2729-2740: whether the master waits for confirmations *)
Definition waits_ok (m : master) : bool :=
  existsb (fun l => (1 <=? l) && match d_peer (m_d m) l with
                                 | PsDead | PsReady | PsInResize3 | PsInResizeRemove3 => false
                                 | _ => true end) (zcount (d_maxid (m_d m) + 1)).
Definition count_st (f : pstate -> bool) (d : node) : Z :=
  Z.of_nat (length (filter (fun l => (1 <=? l) && f (d_peer d l)) (zcount (d_maxid d + 1)))).

(* backend-tcp2.c:2770-2800 *)
Definition end_step (w : wgrp) (max : Z) (b : gb) (lid : Z) : outcome gb :=
  match b_peer b lid with
  | PsDead => Ok b
  | PsInResize | PsInResize3 => gb_keep w max lid PsReady b
  | PsReady => gb_add max lid b
  | PsInResizeRemove3 => gb_drop w max lid b
  | _ => Abort
  end.

(* backend-tcp2.c:2741-2810: the master after the second wait, and core.c:571-577 (requests
   which came in since are dropped) *)
Definition master_end (junk : Z -> Z) (added to_remove : Z) (m : master) : outcome (master * list (Z * msg)) :=
  let d := m_d m in
  match d_inst d with
  | None => UB
  | Some i =>
    cassert (count_st (fun s => negb (is_dead s)) d =? m_ready m) (
    cassert (count_st is_dead d =? m_dead m) (
    let change := (0 <? added) || (0 <? to_remove) in
    let e := if change then i_epoch i + 1 else i_epoch i in
    let tos := filter (fun l => (1 <=? l) && negb (is_dead (d_peer d l))) (zcount (d_maxid d + 1)) in
    let out := map (fun l => (m_pfd m l, MPhase (i_phase i) e)) tos in
    if negb change then
      Ok (m_setreqs (m_setd m (set_st (set_peers d (fun l =>
            if (1 <=? l) && (l <=? d_maxid d) && negb (is_dead (d_peer d l)) then PsReady else d_peer d l)) PsReady)) [],
          out)
    else
      let max := d_maxid d + 1 in
      do b <- ofold (end_step (i_world i) max) (zcount max) (mkGb 0 0 junk (d_peer d));
      cassert (w_size (i_world i) =? b_i1 b) (
      do i' <- new_world max (b_i2 b) (b_mem b) max i;
      Ok (m_setreqs (m_setd m (set_inst (set_st (set_peers d (b_peer b)) PsReady) i')) [], out))))
  end.

(** A joining process: startup *)

(* backend-tcp2.c:1687-1733 new_inst_data and 1957-1965: before the register command *)
Definition newcomer : node :=
  mkNode (-1) PsBeforeReg (fun l => if l =? 0 then PsReady else PsInvalid) (fun _ => false) (-1) 0 (-1) (-1) None.

(* state of the loop at 2036-2067: IDs in parent and world, their memory, peer states *)
Record nb := mkNb { nb_p : Z; nb_w : Z; nb_pmem : Z -> Z; nb_wmem : Z -> Z; nb_my : Z; nb_peer : Z -> pstate }.

(* backend-tcp2.c:2036-2067; [pmax], [wmax]: maxsize of the groups parent and world *)
Definition init_step (mylid pmax wmax : Z) (b : nb) (lid : Z) : outcome nb :=
  match nb_peer b lid with
  | PsDead => Ok b
  | s =>
    let my := if mylid =? lid then nb_w b else nb_my b in
    match s with
    | PsInResize =>
      do p1 <- gput pmax (nb_pmem b) (nb_p b) lid;
      do w1 <- gput wmax (nb_wmem b) (nb_w b) lid;
      do w2 <- gput wmax w1 (2 * wmax + nb_w b) (nb_p b);
      do w3 <- gput wmax w2 (wmax + nb_p b) (nb_w b);
      Ok (mkNb (nb_p b + 1) (nb_w b + 1) p1 w3 my (setz (nb_peer b) lid PsReady))
    | PsInResizeRemove =>
      do p1 <- gput pmax (nb_pmem b) (nb_p b) lid;
      do w1 <- gput wmax (nb_wmem b) (wmax + nb_p b) (-1);
      Ok (mkNb (nb_p b + 1) (nb_w b) p1 w1 my (setz (nb_peer b) lid PsReadyRemove))
    | PsNoConnect =>
      do w1 <- gput wmax (nb_wmem b) (nb_w b) lid;
      do w2 <- gput wmax w1 (2 * wmax + nb_w b) (-1);
      Ok (mkNb (nb_p b) (nb_w b + 1) (nb_pmem b) w2 my (setz (nb_peer b) lid PsReady))
    | _ => Abort
    end
  end.

(* backend-tcp2.c:2003-2014: added, old, remove *)
Definition init_count (peer : Z -> pstate) (c : Z * Z * Z) (lid : Z) : outcome (Z * Z * Z) :=
  let '(a, o, r) := c in
  match peer lid with
  | PsDead => Ok c
  | PsNoConnect => Ok (a + 1, o, r)
  | PsInResize => Ok (a, o + 1, r)
  | PsInResizeRemove => Ok (a, o + 1, r + 1)
  | _ => Abort
  end.

(* backend-tcp2.c:1820-1829 (end of startup_non_master), 1994-2073 and core.c:198-248: a process
   other than the master, after the wait for ready state and phase: of the initial world (no
   old ones, 2025-2032), or one which joined a running application. [junk]:
   contents of the memory from malloc; myid is not set by laik_create_group either. *)
Definition first_world (junk : Z -> Z) (wsize lid : Z) : wgrp :=
  mkWg wsize wsize lid (fun i => if (0 <=? i) && (i <? wsize) then i else junk i) None.
Definition node_init (junk : Z -> Z) (d : node) : outcome node :=
  let peer0 := fun l => if (0 <=? l) && (l <=? d_maxid d)
                        then match d_peer d l with PsInvalid => PsDead | s => s end else d_peer d l in
  let peer1 := setz peer0 (d_lid d) PsNoConnect in
  let lids := zcount (d_maxid d + 1) in
  do c <- ofold (init_count peer1) lids (0, 0, 0);
  let '(added, old, remove) := c in
  cassert (d_peers d + 1 =? old + added) (
  let wsize := d_peers d + 1 - remove in
  if old =? 0 then
    Ok (set_inst (set_st (set_peers d (fun l => if (0 <=? l) && (l <? wsize) then PsReady else peer1 l)) PsReady)
          (mkInst (d_epoch d) (d_phase d) (d_maxid d + 1) (first_world junk wsize (d_lid d))))
  else
    do b <- ofold (init_step (d_lid d) old wsize) lids (mkNb 0 0 junk junk (junk 0) peer1);
    cassert (nb_p b =? old) (
    cassert (nb_w b =? wsize) (
    Ok (set_inst (set_st (set_peers d (nb_peer b)) PsReady)
          (mkInst (d_epoch d) (d_phase d) (d_maxid d + 1)
             (mkWg wsize wsize (nb_my b) (nb_wmem b) (Some (mkPg old (-1) (nb_pmem b))))))))).

(** The system: the master, the other processes by file descriptor, and the connections *)

(* where a process is: in the application, in the first or second wait of the master, in the
   wait of another process, in the registration of a joining process *)
Inductive mpc := MApp | MIn | MWaitOk (added to_remove : Z).
Inductive npc := NApp | NWait | NReg.
Record nproc := mkNp { np_d : node; np_pc : npc }.

Record sys := mkSys {
  s_m : master; s_mpc : mpc; s_n : Z -> option nproc;
  s_down : Z -> list msg;   (* from the master, by file descriptor *)
  s_up : Z -> list msg }.   (* to the master *)

Inductive event :=
| EvCallM               (* master calls laik_allow_world_resize *)
| EvCall (q : Z)        (* another process does *)
| EvFinishM             (* laik_finish_world_resize *)
| EvFinish (q : Z)
| EvGoM                 (* the condition the master waits for holds: it goes on *)
| EvGo (q : Z)          (* same for another process *)
| EvDown (q : Z)        (* process q handles the next command from the master *)
| EvUp (q : Z)          (* the master handles the next command from process q *)
| EvCut (pat : Z -> bool) (* the master gets a cutoff command *)
| EvJoin (q : Z).       (* a process starts, connects, and sends a register command *)

(* commands appended to the connections *)
Definition sent_to (q : Z) (out : list (Z * msg)) : list msg :=
  map snd (filter (fun x => fst x =? q) out).
Definition push (f : Z -> list msg) (out : list (Z * msg)) : Z -> list msg := fun q => f q ++ sent_to q out.
Definition push1 (f : Z -> list msg) (q : Z) (l : list msg) : Z -> list msg := setz f q (f q ++ l).

Definition with_m (s : sys) (m : master) (pc : mpc) (out : list (Z * msg)) : sys :=
  mkSys m pc (s_n s) (push (s_down s) out) (s_up s).
Definition with_n (s : sys) (q : Z) (d : node) (pc : npc) (out : list msg) : sys :=
  mkSys (s_m s) (s_mpc s) (setz (s_n s) q (Some (mkNp d pc))) (s_down s) (push1 (s_up s) q out).

(* whether a process other than the master may go on, backend-tcp2.c:2546 and 1811-1817 *)
Definition may_go (n : nproc) : bool :=
  match np_pc n with
  | NApp => false
  | NWait => match d_inst (np_d n) with Some i => d_phase (np_d n) =? i_phase i | None => false end
  | NReg => is_ready (d_st (np_d n)) && negb (d_phase (np_d n) =? -1)
  end.
Definition go_node (junk : Z -> Z) (n : nproc) : outcome nproc :=
  do d <- (match np_pc n with NReg => node_init junk (np_d n) | _ => node_leave junk (np_d n) end);
  Ok (mkNp d NApp).

(* the phase handed to the next call: [next] of the phase of the last resize, the same
   program in all processes *)
Definition phase_of (d : node) : Z := match d_inst d with Some i => i_phase i | None => 0 end.

(* one step: [None] if the event is not possible, otherwise its outcome *)
Definition exec (next : Z -> Z) (junk : Z -> Z) (s : sys) (ev : event) : option (outcome sys) :=
  let m := s_m s in
  match ev with
  | EvCallM =>
    match s_mpc s with
    | MApp => Some (do m' <- master_call (next (phase_of (m_d m))) m; Ok (with_m s m' MIn []))
    | _ => None
    end
  | EvFinishM =>
    match s_mpc s with
    | MApp => Some (do m' <- finish_master m; Ok (with_m s m' MApp []))
    | _ => None
    end
  | EvGoM =>
    match s_mpc s with
    | MApp => None
    | MIn => if waits_in m then None
             else Some (do r <- master_mid m;
                        let '(m', a, r, out) := r in Ok (with_m s m' (MWaitOk a r) out))
    | MWaitOk a r => if waits_ok m then None
                     else Some (do r <- master_end junk a r m; Ok (with_m s (fst r) MApp (snd r)))
    end
  | EvCut pat => Some (do m' <- got_cutoff pat m; Ok (with_m s m' (s_mpc s) []))
  | EvCall q =>
    match s_n s q with
    | Some (mkNp d NApp) =>
      Some (do r <- node_call (next (phase_of d)) d;
            let '(d', w, out) := r in Ok (with_n s q d' (if w then NWait else NApp) out))
    | _ => None
    end
  | EvFinish q =>
    match s_n s q with
    | Some (mkNp d NApp) => Some (do d' <- finish_node d; Ok (with_n s q d' NApp []))
    | _ => None
    end
  | EvGo q =>
    match s_n s q with
    | Some n => if may_go n then Some (do n' <- go_node junk n; Ok (with_n s q (np_d n') (np_pc n') [])) else None
    | None => None
    end
  | EvDown q =>
    match s_n s q, s_down s q with
    | Some n, c :: rest =>
      Some (do r <- node_cmd c (np_d n);
            let s1 := mkSys m (s_mpc s) (s_n s) (setz (s_down s) q rest) (s_up s) in
            Ok (with_n s1 q (fst r) (np_pc n) (snd r)))
    | _, _ => None
    end
  | EvUp q =>
    match s_up s q with
    | c :: rest =>
      Some (do r <- master_cmd m q c;
            let s1 := mkSys m (s_mpc s) (s_n s) (s_down s) (setz (s_up s) q rest) in
            Ok (with_m s1 (fst r) (s_mpc s) (snd r)))
    | [] => None
    end
  | EvJoin q =>
    match s_n s q with
    | Some _ => None
    | None => if (0 <? q) && (q <? max_fds)
              then Some (Ok (with_n s q newcomer NReg [MRegister])) else None
    end
  end.
