(* What the world resize has to achieve: the sequence of worlds which results from the join and
   removal requests, and what a process has to see of it *)
From Coq Require Import ZArith List Bool Lia.
From Verif Require Import Base Model_Space Model_RangeList Model_Partitioner Model_Resize Model_Startup.
Import ListNotations.
Open Scope Z_scope.

(* position of [x] in [l], -1 if it does not occur *)
Fixpoint index_from (k : Z) (l : list Z) (x : Z) : Z :=
  match l with
  | [] => -1
  | y :: t => if y =? x then k else index_from (k + 1) t x
  end.
Definition index_of (l : list Z) (x : Z) : Z := index_from 0 l x.

Definition joins (rs : list req) : list Z := flat_map (fun r => match r with RJoin fd => [fd] | _ => [] end) rs.
Definition removals (rs : list req) : list Z := flat_map (fun r => match r with RRemove l => [l] | _ => [] end) rs.
Definition zin (x : Z) (l : list Z) : bool := existsb (Z.eqb x) l.
Definition zlen {A} (l : list A) : Z := Z.of_nat (length l).
Definition zfrom (a n : Z) : list Z := map (Z.add a) (zcount n).

(* A world: the location IDs of its processes by rank, and the number of location IDs given
   out so far. A resize drops the processes asked to be removed, keeps the others in order, and
   appends one process with a new location ID for each join request. *)
Definition resized (w : list Z * Z) (rs : list req) : list Z * Z :=
  (filter (fun l => negb (zin l (removals rs))) (fst w) ++ zfrom (snd w) (zlen (joins rs)),
   snd w + zlen (joins rs)).

(* the world after the resizes with request lists [log], starting with [n] processes *)
Definition world_after (n : Z) (log : list (list req)) : list Z * Z := fold_left resized log (zcount n, n).

(* the location ID of the process with connection [q], -1: none. The first [n] - 1 processes which register at
   startup ([regs]: in the order of registration) get the first ones; with each resize, the processes
   which asked to join get the next ones, in the order of their requests *)
Fixpoint give (k : Z) (qs : list Z) (f : Z -> Z) : Z -> Z :=
  match qs with
  | [] => f
  | q :: t => give (k + 1) t (setz f q k)
  end.
Definition first_lids (n : Z) (regs : list Z) : Z -> Z := give 1 (firstn (Z.to_nat (n - 1)) regs) (fun _ => -1).
Definition lids_after (n : Z) (regs : list Z) (log : list (list req)) : (list Z * Z) * (Z -> Z) :=
  fold_left (fun w rs => (resized (fst w) rs, give (snd (fst w)) (joins rs) (snd w))) log
    (zcount n, n, first_lids n regs).
Definition lid_of (n : Z) (regs : list Z) (log : list (list req)) (q : Z) : Z := snd (lids_after n regs log) q.

(* epoch [e]: after [e] resizes *)
Definition world_at (n : Z) (log : list (list req)) (e : Z) : list Z :=
  fst (world_after n (firstn (Z.to_nat e) log)).
Definition locations_at (n : Z) (log : list (list req)) (e : Z) : Z :=
  snd (world_after n (firstn (Z.to_nat e) log)).

(* the location IDs of a group by rank *)
Definition group_locs (size : Z) (mem : Z -> Z) : list Z := map mem (zcount size).

(* what an instance shows to the application of the process with location ID [lid]: the world
   of its epoch, its own rank in it (-1: not part of it), the number of locations; and if the
   group from before the resize is still there, that group, the rank each process of the world
   had in it, and the rank each of its processes has in the world *)
Record world_ok (n : Z) (log : list (list req)) (lid : Z) (i : inst) : Prop := {
  wo_epoch : 0 <= i_epoch i <= zlen log;
  wo_locs : group_locs (w_size (i_world i)) (w_mem (i_world i)) = world_at n log (i_epoch i);
  wo_size : w_size (i_world i) = zlen (world_at n log (i_epoch i));
  wo_max : w_size (i_world i) <= w_max (i_world i);
  wo_myid : w_myid (i_world i) = index_of (world_at n log (i_epoch i)) lid;
  wo_locations : i_locations i = locations_at n log (i_epoch i);
  wo_parent : match w_parent (i_world i) with
    | None => True
    | Some p =>
      let w := i_world i in
      let now := world_at n log (i_epoch i) in
      let before := world_at n log (i_epoch i - 1) in
      1 <= i_epoch i /\
      p_size p = zlen before /\ group_locs (p_size p) (p_mem p) = before /\
      p_myid p = index_of before lid /\
      (forall r l, nth_error now (Z.to_nat r) = Some l -> 0 <= r ->
         w_mem w (2 * w_max w + r) = index_of before l) /\
      (forall r l, nth_error before (Z.to_nat r) = Some l -> 0 <= r ->
         w_mem w (w_max w + r) = index_of now l)
    end }.

(** The runs considered *)

(* the requests the master handles with an event, if any *)
Definition handled (s : sys) (ev : event) : list (list req) :=
  match ev, s_mpc s with
  | EvGoM, MIn => match m_reqs (s_m s) with [] => [] | rs => [rs] end
  | _, _ => []
  end.

(* what is asked from the outside. When the master handles requests ([w]: its current world): no process is
   to be removed twice or without being part of the world, and if processes join, at least as
   many join as leave. There are never more than 100 requests waiting. *)
Definition requests_fine (w : list Z) (rs : list req) : Prop :=
  NoDup (removals rs) /\ (forall l, In l (removals rs) -> In l w /\ l <> 0) /\
  (joins rs = [] \/ zlen (removals rs) <= zlen (joins rs)).
Definition is_rr1 (s : pstate) : bool := match s with PsRegReceived => true | _ => false end.
Definition fine (n : Z) (log : list (list req)) (s : sys) (ev : event) : Prop :=
  let m := s_m s in
  match ev with
  | EvGoM => match s_mpc s with
             | MIn => requests_fine (fst (world_after n log)) (m_reqs m)
             | _ => True
             end
  | EvCut pat => zlen (m_reqs m) + zlen (filter (fun l => (1 <=? l) && pat l) (zcount (d_maxid (m_d m) + 1))) <= max_reqs
  | EvCallM => zlen (m_reqs m) + zlen (filter (fun fd => is_rr1 (m_fdst m fd)) (zcount max_fds)) <= max_reqs
  | _ => True
  end.

(* startup with LAIK_SIZE [n]; [regs]: the processes which registered, in the order of registration *)
Definition registers (t : tsys) (ev : tevent) : list Z :=
  match ev with
  | TUp q => match s_up (t_s t) q with MRegister :: _ => [q] | _ => [] end
  | _ => []
  end.
Inductive treach (junk : Z -> Z) (n : Z) : tsys -> list Z -> Prop :=
| treach_start : treach junk n tstart []
| treach_step t regs ev t' :
    treach junk n t regs -> texec junk n t ev = Some (Ok t') -> treach junk n t' (regs ++ registers t ev).

(* states reached after the master finished startup with [n] processes, with the non-empty request
   lists handled *)
Inductive reach (next junk : Z -> Z) (n : Z) (regs : list Z) : sys -> list (list req) -> Prop :=
| reach_start t : treach junk n t regs -> t_pc t = TDone -> reach next junk n regs (t_s t) []
| reach_step s log ev s' :
    reach next junk n regs s log -> fine n log s ev -> exec next junk s ev = Some (Ok s') ->
    reach next junk n regs s' (log ++ handled s ev).

(* steps of the library itself: commands handled, waits which end *)
Definition internal (ev : event) : Prop :=
  match ev with EvGoM | EvGo _ | EvDown _ | EvUp _ => True | _ => False end.
(* at rest: no such step is possible *)
Definition at_rest (next junk : Z -> Z) (s : sys) : Prop :=
  forall ev, internal ev -> exec next junk s ev = None.
(* such a step, with the requests handled *)
Definition istep (next junk : Z -> Z) (n : Z) (y x : sys * list (list req)) : Prop :=
  exists ev, internal ev /\ fine n (snd x) (fst x) ev /\ exec next junk (fst x) ev = Some (Ok (fst y)) /\
    snd y = snd x ++ handled (fst x) ev.

(* the same for startup *)
Definition tinternal (ev : tevent) : Prop := match ev with TJoin _ => False | _ => True end.
Definition t_rest (junk : Z -> Z) (n : Z) (t : tsys) : Prop := forall ev, tinternal ev -> texec junk n t ev = None.
Definition tstep (junk : Z -> Z) (n : Z) (t' t : tsys) : Prop :=
  exists ev, tinternal ev /\ texec junk n t ev = Some (Ok t').
(* the number of processes started besides the master *)
Definition procs (s : sys) : Z :=
  zlen (filter (fun q => match s_n s q with Some _ => true | None => false end) (zcount max_fds)).

(* states after [s0] without any call of the application, only steps of the library and processes which start *)
Inductive later (next junk : Z -> Z) (s0 : sys) : sys -> Prop :=
| later_none : later next junk s0 s0
| later_step s ev s' : later next junk s0 s -> (internal ev \/ exists q, ev = EvJoin q) ->
    exec next junk s ev = Some (Ok s') -> later next junk s0 s'.
