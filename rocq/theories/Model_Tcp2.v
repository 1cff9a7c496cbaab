(* Model of the data transfer of src/backend-tcp2.c: framing of commands and binary data in the byte
   streams between two processes, sending and receiving the values of a range. Bytes are integers
   from 0 to 255. Not modelled: connections, registration, resizing, errors of read and write,
   the event loop (the order of reads is left to the theorems), log output. *)
From Coq Require Import ZArith List Bool Lia.
From Verif Require Import Base Model_Space Model_RangeList Model_Mem Model_Layout Model_Transition Model_KVS Model_SpaceStore.
Import ListNotations.
Open Scope Z_scope.

Definition zlen {A} (l : list A) : Z := Z.of_nat (length l).

(* conversion of an unsigned 64 bit number to int (as done by gcc) *)
Definition as_int (z : Z) : Z := (z + 2 ^ 31) mod 2 ^ 32 - 2 ^ 31.

(* backend-tcp2.c:182 RBUF_LEN, 2115 SBUF_LEN *)
Definition rbuf_len : Z := 8 * 1024.
Definition sbuf_len : Z := 8 * 1024.

(* backend-tcp2.c:252-258 the receive part of struct Peer; [pr_space] and [pr_range] are the space
   and borders of rcv_range. The mapping also has the element size of its container. *)
Record rpeer := mkRp { pr_count : Z; pr_off : Z; pr_es : Z; pr_map : option lmap; pr_space : space; pr_range : box; pr_idx : index; pr_ro : redop }.

(* ---------- receiving ---------- *)

Section Receive.
(* (t->reduce)(p, p, buf, 1, op) for the type of the container, on the bytes of one element *)
Variable rd : redop -> list Z -> list Z -> outcome (list Z).

(* backend-tcp2.c:711-719, 732-733 (got_binary_data) and 763-765, 801-811 (got_data): one received
   element is stored at the current position, or reduced with the value there. Result of next_lex
   is the flag. *)
Definition put_elem (p : rpeer) (m : mem) (e : list Z) : outcome (rpeer * mem * bool) :=
  match pr_map p with
  | None => Abort
  | Some mp =>
    do off <- offset_lex (lm_layout mp) (lm_sec mp) (pr_idx p);
    let a := lm_start mp + off * pr_es p in
    do v <- (match pr_ro p with RO_None => Ok e | o => rd o (mread m a (Z.to_nat (pr_es p))) e end);
    let '(more, i) := next_lex (sp_dims (pr_space p)) (pr_range p) (pr_idx p) in
    Ok (mkRp (pr_count p) (pr_off p + 1) (pr_es p) (pr_map p) (pr_space p) (pr_range p) i (pr_ro p), mwrite m a v, more)
  end.

(* backend-tcp2.c:700 and 755: is there a receive waiting for elements? *)
Definition waiting (p : rpeer) : bool := negb ((pr_count p =? 0) || (pr_count p =? pr_off p)).

(* backend-tcp2.c:710-734 the loop of got_binary_data; [more] is inTraversal *)
Fixpoint gb_loop (fuel : nat) (es : Z) (p : rpeer) (m : mem) (more : bool) (buf : list Z) (consumed : Z) : outcome (rpeer * mem * Z) :=
  if zlen buf <? es then Ok (p, m, consumed) else
  match fuel with
  | O => NoFuel
  | S n =>
    cassert more (
    do q <- put_elem p m (firstn (Z.to_nat es) buf);
    gb_loop n es (fst (fst q)) (snd (fst q)) (snd q) (skipn (Z.to_nat es) buf) (consumed + es))
  end.

(* backend-tcp2.c:695-741 got_binary_data: number of bytes consumed. The flag to leave the event
   loop is not modelled. *)
Definition got_binary_data (p : rpeer) (m : mem) (buf : list Z) : outcome (rpeer * mem * Z) :=
  if negb (waiting p) then Ok (p, m, zlen buf) else
  match pr_map p with
  | None => Abort
  | Some _ =>
    do q <- gb_loop (length buf) (pr_es p) p m true buf 0;
    cassert (pr_off (fst (fst q)) <=? pr_count (fst (fst q))) (Ok q)
  end.

(* backend-tcp2.c:336-353 istr: static buffer of 50 bytes; %llu prints unsigned *)
Definition istr (dims : nat) (i : index) : outcome (list Z) :=
  let u z := print_dec (z mod two64) in
  let s := match dims with
           | 1%nat => u (i0 i)
           | 2%nat => u (i0 i) ++ [47] ++ u (i1 i)
           | _ => u (i0 i) ++ [47] ++ u (i1 i) ++ [47] ++ u (i2 i)
           end in
  if zlen s <? 50 then Ok s else UB.

(* backend-tcp2.c:769-771 position string "(%d:%s)" in a buffer of 70 bytes *)
Definition pos_str (n : Z) (dims : nat) (i : index) : outcome (list Z) :=
  do s <- istr dims i;
  let r := [40] ++ print_dec n ++ [58] ++ s ++ [41] in
  if zlen r <? 70 then Ok r else UB.

(* scanf conversion %20s (with [n] = 20): skips white space, at least one other character *)
Fixpoint take_word (n : nat) (l : list Z) : list Z * list Z :=
  match n, l with
  | S n', c :: l' => if is_space c then ([], l) else let '(w, r) := take_word n' l' in (c :: w, r)
  | _, _ => ([], l)
  end.
Definition scan_word (n : nat) (l : list Z) : option (list Z * list Z) :=
  match take_word n (skip_space l) with ([], _) => None | r => Some r end.

Fixpoint starts_with (s l : list Z) : option (list Z) :=
  match s, l with
  | [], _ => Some l
  | c :: s', d :: l' => if c =? d then starts_with s' l' else None
  | _ :: _, [] => None
  end.
(* backend-tcp2.c:776 *)
Fixpoint skip_blank (l : list Z) : list Z :=
  match l with c :: l' => if c =? 32 then skip_blank l' else l | [] => [] end.

(* backend-tcp2.c:783-798 hex bytes; the end of the list is the terminating zero. [acc]: bytes
   found, in order; stored into char variables *)
Fixpoint hex_loop (l : list Z) (len v : Z) (acc : list Z) : outcome (list Z) :=
  match l with
  | [] => cassert (zlen acc <? len) (Ok (acc ++ [v mod 256]))
  | c :: l' =>
    if c =? 32 then
      cassert (zlen acc <? len) (
      let acc' := acc ++ [v mod 256] in
      if zlen acc' =? len then Ok acc' else hex_loop l' len 0 acc')
    else
      cassert ((48 <=? c) && (c <=? 102)) (cassert ((c <=? 57) || (97 <=? c)) (
      hex_loop l' len (16 * v + (if 57 <? c then c - 97 + 10 else c - 48)) acc))
  end.

(* backend-tcp2.c:745-823 got_data, with [msg] without terminating zero. %d reads a number
   without checking for overflow of int. *)
Definition got_data (p : rpeer) (m : mem) (msg : list Z) : outcome (rpeer * mem) :=
  match scan_word 20 msg with
  | None => Ok (p, m)
  | Some (_, l1) =>
    match scan_dec l1 with
    | None => Ok (p, m)
    | Some (len, l2) =>
      let l3 := skip_space l2 in
      if negb (waiting p) then Ok (p, m) else
      cassert (pr_es p =? len) (
      match pr_map p with
      | None => Abort
      | Some _ =>
        do ps <- pos_str (pr_off p) (sp_dims (pr_space p)) (pr_idx p);
        do l4 <- (if hd 0 l3 =? 40 then match starts_with ps l3 with Some r => Ok (skip_blank r) | None => Abort end else Ok l3);
        cassert (len <? 100) (
        do e <- hex_loop l4 len 0 [];
        cassert (zlen e =? len) (
        do q <- put_elem p m e;
        cassert (Bool.eqb (snd q) (pr_off (fst (fst q)) <? pr_count (fst (fst q)))) (Ok (fst q))))
      end)
    end
  end.

(* state of a process: everything else, the receive from the peer, memory *)
Variable X : Type.
(* all commands but "data" *)
Variable other : X -> list Z -> outcome X.
Definition pstate : Type := X * rpeer * mem.

(* backend-tcp2.c:1469-1518 got_cmd, from a peer with a location id *)
Definition got_cmd (s : pstate) (msg : list Z) : outcome pstate :=
  let '(x, p, m) := s in
  match msg with
  | [] => Ok s
  | c :: _ => if c =? 100 then do q <- got_data p m msg; Ok (x, fst q, snd q) else do x' <- other x msg; Ok (x', p, m)
  end.
Definition got_bin (s : pstate) (buf : list Z) : outcome (pstate * Z) :=
  let '(x, p, m) := s in do q <- got_binary_data p m buf; Ok (x, fst (fst q), snd (fst q), snd q).

(* backend-tcp2.c:276-280 receive buffer (the used part) and outstanding_bin of an FD *)
Record fdst := mkFd { fd_rbuf : list Z; fd_bin : Z }.

(* backend-tcp2.c:1533-1581 the loop of process_rbuf: [pend] are the bytes between pos1 and pos2,
   [rest] those from pos2. Result: the bytes from pos1 on, which stay in the buffer (1582-1586). *)
Fixpoint rb_loop (fuel : nat) (s : pstate) (bin : Z) (pend rest : list Z) : outcome (pstate * fdst) :=
  match rest with
  | [] => Ok (s, mkFd pend bin)
  | c :: r =>
    match fuel with
    | O => NoFuel
    | S n =>
      let here := pend ++ rest in
      if bin >? 0 then
        if zlen here <? bin then
          do q <- got_bin s here;
          if snd q =? 0 then Ok (fst q, mkFd here bin)
          else rb_loop n (fst q) (bin - snd q) [] (skipn (Z.to_nat (snd q)) here)
        else
          do q <- got_bin s (firstn (Z.to_nat bin) here);
          cassert (snd q >? 0) (rb_loop n (fst q) (bin - snd q) [] (skipn (Z.to_nat (snd q)) here))
      else
      if hd 0 here =? 66 then
        match here with
        | _ :: b1 :: b2 :: h => rb_loop n s (b1 + b2 * 256) [] h
        | _ => Ok (s, mkFd here bin)
        end
      else if c =? 4 then do s' <- got_cmd s [113; 117; 105; 116]; rb_loop n s' bin [] r
      else if c =? 13 then rb_loop n s bin (pend ++ [32]) r
      else if c =? 10 then do s' <- got_cmd s pend; rb_loop n s' bin [] r
      else rb_loop n s bin (pend ++ [c]) r
    end
  end.
Definition process_rbuf (s : pstate) (f : fdst) : outcome (pstate * fdst) :=
  rb_loop (length (fd_rbuf f)) s (fd_bin f) [] (fd_rbuf f).

(* backend-tcp2.c:1596-1651 got_bytes, with [q] being bytes sent by the peer which arrived: read
   returns as many as there are, up to the space in the buffer. Result also: bytes not yet read.
   Not modelled: closing of the connection. *)
Definition got_bytes (s : pstate) (f : fdst) (q : list Z) : outcome (pstate * fdst * list Z) :=
  if zlen (fd_rbuf f) =? rbuf_len then Panic else
  let n := Z.to_nat (rbuf_len - zlen (fd_rbuf f)) in
  do r <- process_rbuf s (mkFd (fd_rbuf f ++ firstn n q) (fd_bin f));
  Ok (r, skipn n q).

(* backend-tcp2.c:2203-2234 recv_range up to the message giving permission: the receive is set
   up. [p]: state of the peer before. *)
Definition recv_start (sp : space) (b : box) (mp : lmap) (ro : redop) (p : rpeer) : outcome rpeer :=
  cassert (negb (lm_start mp =? 0)) (cassert (pr_count p =? 0) (
  do n <- box_size (sp_dims sp) b;
  cassert (as_int n >? 0) (Ok (mkRp (as_int n) 0 (lm_es mp) (Some mp) sp b (b_from b) ro)))).
(* 2236-2241: waiting ends when all was received *)
Definition recv_done (p : rpeer) : bool := negb (pr_off p <? pr_count p).
Definition recv_end (p : rpeer) : rpeer := mkRp 0 (pr_off p) (pr_es p) (pr_map p) (pr_space p) (pr_range p) (pr_idx p) (pr_ro p).
End Receive.

(* ---------- sending ---------- *)

(* backend-tcp2.c:651-658 send_cmd: the bytes written *)
Definition cmd_bytes (cmd : list Z) : list Z := if last cmd 0 =? 10 then cmd else cmd ++ [10].

(* backend-tcp2.c:2231-2234 the command giving permission to send, "allowsend %d %d" *)
Definition allow_cmd (count es : Z) : list Z :=
  [97; 108; 108; 111; 119; 115; 101; 110; 100; 32] ++ print_dec count ++ [32] ++ print_dec es ++ [10].

(* backend-tcp2.c:1291-1309 got_allowsend, with the state scount and selemsize of the peer *)
Definition got_allowsend (s : Z * Z) (msg : list Z) : Z * Z :=
  match scan_word 20 msg with
  | None => s
  | Some (_, l1) =>
    match scan_dec l1 with
    | None => s
    | Some (count, l2) =>
      match scan_dec l2 with
      | None => s
      | Some (es, _) => if negb (fst s =? 0) then s else (count, es)
      end
    end
  end.

(* %02x *)
Definition hexdigit (d : Z) : Z := if d <? 10 then 48 + d else 97 + d - 10.
Definition hex2 (v : Z) : list Z := [hexdigit (v / 16); hexdigit (v mod 16)].

(* backend-tcp2.c:2088-2110 send_data: the command; str has 100 bytes *)
Definition data_cmd (n : Z) (dims : nat) (i : index) (e : list Z) : outcome (list Z) :=
  do s <- istr dims i;
  let str := [100; 97; 116; 97; 32] ++ print_dec (zlen e) ++ [32; 40] ++ print_dec n ++ [58] ++ s ++ [41] ++ flat_map (fun v => 32 :: hex2 v) e in
  if zlen str <? 100 then Ok str else UB.

(* backend-tcp2.c:2115-2118 sbuf without the header, sbuf_toLID. [snd_out]: bytes written to the peer *)
Record sbuf := mkSb { sb_data : list Z; sb_to : Z; sb_out : list Z }.
Definition sbuf_init : sbuf := mkSb [] (-1) [].

(* backend-tcp2.c:2120-2134 send_data_bin_flush. sbuf_used is never 0, as it includes the header. *)
Definition bin_flush (lid : Z) (b : sbuf) : outcome sbuf :=
  cassert (sb_to b =? lid) (
  let n := zlen (sb_data b) in
  Ok (mkSb [] (-1) (sb_out b ++ [66; n mod 256; n / 256] ++ sb_data b))).

(* backend-tcp2.c:2136-2157 send_data_bin. memcpy beyond the end of sbuf is undefined. *)
Definition bin_add (lid : Z) (b : sbuf) (e : list Z) : outcome sbuf :=
  do b1 <- (if 3 + zlen (sb_data b) + zlen e >? sbuf_len then bin_flush lid b else Ok b);
  cassert ((sb_to b1 <? 0) || (sb_to b1 =? lid)) (
  if 3 + zlen (sb_data b1) + zlen e >? sbuf_len then UB else
  Ok (mkSb (sb_data b1 ++ e) lid (sb_out b1))).

(* backend-tcp2.c:2186-2196 the loop of send_range; [snd_bin]: binary data accepted by the peer *)
Fixpoint send_loop (fuel : nat) (binary : bool) (lid : Z) (dims : nat) (b : box) (mp : lmap) (m : mem) (i : index) (n : Z) (o : sbuf) : outcome (sbuf * Z) :=
  match fuel with
  | O => NoFuel
  | S k =>
    do off <- offset_lex (lm_layout mp) (lm_sec mp) i;
    let e := mread m (lm_start mp + off * lm_es mp) (Z.to_nat (lm_es mp)) in
    do o1 <- (if binary then bin_add lid o e
              else do c <- data_cmd n dims i e; Ok (mkSb (sb_data o) (sb_to o) (sb_out o ++ cmd_bytes c)));
    match next_lex dims b i with
    | (true, j) => send_loop k binary lid dims b mp m j (n + 1) o1
    | (false, _) => Ok (o1, n + 1)
    end
  end.

(* backend-tcp2.c:2161-2203 send_range after permission for [scount] elements of size [ses] was
   received: the bytes written *)
Definition send_range (binary : bool) (lid : Z) (sp : space) (b : box) (mp : lmap) (m : mem) (scount ses : Z) : outcome (list Z) :=
  cassert (negb (lm_start mp =? 0)) (
  do n <- box_size (sp_dims sp) b;
  cassert (scount =? as_int n) (cassert (ses =? lm_es mp) (
  do r <- send_loop (S (Z.to_nat n)) binary lid (sp_dims sp) b mp m (b_from b) 0 sbuf_init;
  cassert (snd r =? as_int n) (
  do o <- (if binary then bin_flush lid (fst r) else Ok (fst r));
  Ok (sb_out o))))).
