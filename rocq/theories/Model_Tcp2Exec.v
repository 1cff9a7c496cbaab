(* Model of src/backend-tcp2.c:2120-2383: execution of the action sequence of a transition by all
   processes of a group. Messages are lists of elements: how elements become bytes and how bytes
   are read is in Model_Tcp2.v (C51, C52). Processes are given by their rank; the location id of a
   rank (laik_group_locationid) is taken to be the rank. Not modelled: log output, connections
   (made before or at first use), changes of the group. *)
From Coq Require Import ZArith List Bool.
From Verif Require Import Base Model_Space Model_RangeList Model_Mem Model_Layout Model_Partitioner Model_Transition Model_Data
  Model_Action Model_ActionTrans Model_Switch Model_KVS Model_SpaceStore Model_Tcp2.
Import ListNotations.
Open Scope Z_scope.

(* What a process does for its actions, in order: send_range (2162), recv_range (2206) and
   laik_data_copy (2288), each with the mappings used *)
Inductive top :=
| TSend (m : lmap) (b : box) (to : Z)
| TRecv (b : box) (from : Z) (m : lmap) (ro : redop)
| TCopy (b : box) (f t : lmap).

(* backend-tcp2.c:2261, 2268, 2277, 2290, 2354, 2364: the mapping for a number, in a list *)
Definition tcp_map (es : Z) (l : option mlist) (no : Z) : outcome lmap :=
  match l with
  | None => Abort
  | Some f => cassert (no <? Z.of_nat (length (ml_maps f))) (do m <- aread (ml_maps f) no; lmap_of es f m)
  end.

(* backend-tcp2.c:2299-2309 receive from each input process but the own one. The operation is the
   reduction for all but the first *)
Fixpoint red_recvs (me : Z) (b : box) (m : lmap) (op ro : redop) (ins : list Z) : list top :=
  match ins with
  | [] => []
  | t :: r => if t =? me then red_recvs me b m op ro r else TRecv b t m op :: red_recvs me b m ro ro r
  end.
(* 2313-2324 send the result *)
Definition red_sends (me : Z) (b : box) (m : lmap) (outs : list Z) : list top :=
  map (TSend m b) (filter (fun t => negb (t =? me)) outs).

(* backend-tcp2.c:2243-2326 exec_reduce. Asserts are checked before the first step, not in
   between. fromMap != m compares addresses of list entries: these always differ. *)
Definition exec_reduce (cx : actx) (fl : option mlist) (tl : mlist) (inG outG inM outM : Z) (b : box) (ro : redop) : outcome (list top) :=
  let me := cx_me cx in
  do outs <- cx_group cx outG;
  do root <- match outs with [] => Abort | t :: _ => Ok t end;      (* assert in taskInGroup *)
  do ins <- cx_group cx inG;
  let here := existsb (fun x => x =? me) ins in
  if negb (me =? root) then
    do s <- (if here then do m <- tcp_map (cx_es cx) fl inM; Ok [TSend m b root] else Ok []);
    do r <- (if existsb (fun x => x =? me) outs then do m <- tcp_map (cx_es cx) (Some tl) outM; Ok [TRecv b root m RO_None] else Ok []);
    Ok (s ++ r)
  else
    do m <- tcp_map (cx_es cx) (Some tl) outM;
    do c <- (if here then do f <- tcp_map (cx_es cx) fl inM; Ok [TCopy b f m] else Ok []);
    Ok (c ++ red_recvs me b m (if here then ro else RO_None) ro ins ++ red_sends me b m outs).

(* backend-tcp2.c:2347-2381 one action *)
Definition tcp_act (cx : actx) (fl : option mlist) (tl : mlist) (a : action) : outcome (list top) :=
  match a_par a with
  | MapPackAndSend no b _ to => do m <- tcp_map (cx_es cx) fl no; Ok [TSend m b to]
  | MapRecvAndUnpack no b _ from => do m <- tcp_map (cx_es cx) (Some tl) no; Ok [TRecv b from m RO_None]
  | MapGroupReduce i o fm tm b _ ro => exec_reduce cx fl tl i o fm tm b ro
  | _ => Abort
  end.

(* backend-tcp2.c:2328-2383 tcp2_exec: what process [me] does for the operations [o]. [q]: qsort *)
Definition tcp_code (q : list aptr -> list aptr) (cx : actx) (o : tops) (fl : option mlist) (tl : mlist) : outcome (list top) :=
  do a <- split_texec cx o;
  do s <- sort_2phases q a;
  do l <- omapm (tcp_act cx fl tl) (snd s);
  Ok (concat l).

(* ---------- all processes ---------- *)

(* a process: what is left to do, a receive which was started (state of the peer), memory *)
Record tproc := mkTq { tq_code : list top; tq_wait : option rpeer; tq_mem : mem }.
(* scount and selemsize of [p] for peer [q], and the elements sent by [p] to [q] which are not yet
   handled by [q] *)
Record tnet := mkTn { tn_proc : Z -> tproc; tn_perm : Z -> Z -> Z * Z; tn_wire : Z -> Z -> list (list Z) }.

Definition upd {A} (f : Z -> A) (p : Z) (v : A) : Z -> A := fun q => if q =? p then v else f q.
Definition upd2 {A} (f : Z -> Z -> A) (a b : Z) (v : A) : Z -> Z -> A := fun p q => if (p =? a) && (q =? b) then v else f p q.

Section Exec.
Variable rd : redop -> list Z -> list Z -> outcome (list Z).
Variable gen : bool.              (* only generic functions of layouts *)
Variable bin : Z -> Z -> bool.    (* does the peer accept binary data? *)
Variable sp : space.

(* backend-tcp2.c:2184-2196 the elements sent by send_range, in order *)
Fixpoint elems_loop (fuel : nat) (b : box) (mp : lmap) (m : mem) (i : index) : outcome (list (list Z)) :=
  match fuel with
  | O => NoFuel
  | S k =>
    do off <- offset_lex (lm_layout mp) (lm_sec mp) i;
    let e := mread m (lm_start mp + off * lm_es mp) (Z.to_nat (lm_es mp)) in
    match next_lex (sp_dims sp) b i with
    | (true, j) => do r <- elems_loop k b mp m j; Ok (e :: r)
    | (false, _) => Ok [e]
    end
  end.
(* 2162-2201 send_range with permission for [cnt] elements of size [es]; see Model_Tcp2 for the bytes *)
Definition tcp_send (p q : Z) (b : box) (mp : lmap) (m : mem) (cnt es : Z) : outcome (list (list Z)) :=
  do _ <- send_range (bin p q) q sp b mp m cnt es;
  do n <- box_size (sp_dims sp) b;
  elems_loop (S (Z.to_nat n)) b mp m (b_from b).

(* state of a peer without receive; the other fields are not used *)
Definition no_recv (b : box) : rpeer := mkRp 0 0 0 None sp b (b_from b) RO_None.

(* laik_data_copy in exec_reduce (2288-2293). memcpy from an area to itself is undefined, but
   leaves memory as it is with all known implementations: this is assumed here (see C53_self_copy) *)
Definition tcp_copy (b : box) (f t : lmap) (m : mem) : outcome mem :=
  do fo <- offset_lex (lm_layout f) (lm_sec f) (b_from b);
  do to_ <- offset_lex (lm_layout t) (lm_sec t) (b_from b);
  if (lm_start f + fo * lm_es f =? lm_start t + to_ * lm_es t) && (lm_es f =? lm_es t) && Nat.eqb (sp_dims sp) 1 then Ok m
  else data_copy gen sp b f t m.

(* got_data (745-823), got_binary_data (695-741): one element *)
Definition tcp_get (r : rpeer) (m : mem) (e : list Z) : outcome (rpeer * mem) :=
  do x <- put_elem rd r m e;
  cassert (Bool.eqb (snd x) (pr_off (fst (fst x)) <? pr_count (fst (fst x)))) (Ok (fst x)).

(* One step of process [p]; None: it waits. A process waits for permission to send (2171-2175), or
   for elements to receive (2237-2238) *)
Definition tstep (s : tnet) (p : Z) : outcome (option tnet) :=
  let x := tn_proc s p in
  match tq_code x with
  | [] => Ok None
  | TCopy b f t :: c =>
    do m <- tcp_copy b f t (tq_mem x);
    Ok (Some (mkTn (upd (tn_proc s) p (mkTq c (tq_wait x) m)) (tn_perm s) (tn_wire s)))
  | TSend mp b q :: c =>
    let '(cnt, es) := tn_perm s p q in
    if cnt =? 0 then Ok None else
    do d <- tcp_send p q b mp (tq_mem x) cnt es;
    Ok (Some (mkTn (upd (tn_proc s) p (mkTq c (tq_wait x) (tq_mem x)))
                   (upd2 (tn_perm s) p q (0, es)) (upd2 (tn_wire s) p q (tn_wire s p q ++ d))))
  | TRecv b f mp ro :: c =>
    match tq_wait x with
    | None =>
      do r <- recv_start sp b mp ro (no_recv b);
      (* the message allowsend, handled by got_allowsend (1291-1309) *)
      Ok (Some (mkTn (upd (tn_proc s) p (mkTq (tq_code x) (Some r) (tq_mem x)))
                     (upd2 (tn_perm s) f p (if fst (tn_perm s f p) =? 0 then (pr_count r, pr_es r) else tn_perm s f p)) (tn_wire s)))
    | Some r =>
      if recv_done r then Ok (Some (mkTn (upd (tn_proc s) p (mkTq c None (tq_mem x))) (tn_perm s) (tn_wire s))) else
      match tn_wire s f p with
      | [] => Ok None
      | e :: w =>
        do y <- tcp_get r (tq_mem x) e;
        Ok (Some (mkTn (upd (tn_proc s) p (mkTq (tq_code x) (Some (fst y)) (snd y))) (tn_perm s) (upd2 (tn_wire s) f p w)))
      end
    end
  end.

(* steps of processes in some order; the step of a waiting process does nothing *)
Fixpoint trun (s : tnet) (sched : list Z) : outcome tnet :=
  match sched with
  | [] => Ok s
  | p :: r => do x <- tstep s p; trun (match x with Some s' => s' | None => s end) r
  end.
Definition tdone (N : Z) (s : tnet) : bool :=
  forallb (fun p => match tq_code (tn_proc s p) with [] => true | _ => false end) (map Z.of_nat (seq 0 (Z.to_nat N))).
Definition tnet_start (code : Z -> list top) (m : Z -> mem) : tnet :=
  mkTn (fun p => mkTq (code p) None (m p)) (fun _ _ => (0, 0)) (fun _ _ => []).
End Exec.

(* data.c:779-826 doTransition up to the execution of the actions (see switch_start in
   Model_Switch.v), with the TCP2 backend: new mappings, what to do *)
Definition tcp_start (q : list aptr -> list aptr) (d : dcont) (gsize me : Z) (addr : Z -> Z) (o : tops) (fl : option mlist) (tl : mlist) : outcome (mlist * list top) :=
  do r <- check_map_reuse (dc_es d) tl fl;
  do t <- allocate_mappings (dc_es d) addr (fst r);
  do c <- tcp_code q (trans_ctx d gsize me o (snd r) t) o (snd r) t;
  Ok (t, c).
