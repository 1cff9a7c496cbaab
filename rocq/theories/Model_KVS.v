(* Model of src/kvs.c (key-value store with change journal) and of the synchronisation of stores
   in src/backend-mpi.c (laik_mpi_sync). Strings and data blocks are lists of bytes.
   Not modelled: callbacks (created/changed/removed functions), log output, failing malloc. *)
From Coq Require Import ZArith List Bool Lia.
From Verif Require Import Base Model_RangeList.
Import ListNotations.
Open Scope Z_scope.

(* strcmp on C strings, given as bytes before the terminating zero; only the sign counts *)
Fixpoint str_cmp (a b : list Z) : Z :=
  match a, b with
  | [], [] => 0
  | [], _ :: _ => -1
  | _ :: _, [] => 1
  | x :: a', y :: b' => if x <? y then -1 else if x >? y then 1 else str_cmp a' b'
  end.

(* the C string starting at the head of a memory block: bytes up to the first zero *)
Fixpoint cstr (l : list Z) : list Z :=
  match l with
  | [] => []
  | c :: l' => if c =? 0 then [] else c :: cstr l'
  end.

(* memcmp(p, v, |v|) == 0 with p a block of bytes. Reading behind the end of p is undefined. *)
Fixpoint memcmp_eq (p v : list Z) : outcome bool :=
  match v, p with
  | [], _ => Ok true
  | _ :: _, [] => UB
  | x :: v', y :: p' => if x =? y then memcmp_eq p' v' else Ok false
  end.

(* strncmp(a, b, n) == 0 for blocks a, b of at least n bytes: stops at a zero byte *)
Fixpoint strncmp_eq (a b : list Z) (n : nat) : bool :=
  match n with
  | O => true
  | S n' => match a, b with
            | x :: a', y :: b' => if negb (x =? y) then false else if x =? 0 then true else strncmp_eq a' b' n'
            | _, _ => true
            end
  end.

(* laik-internal.h Laik_KVS_Entry of a change journal: key, value (pointers into the data block of the
   journal, given here by the bytes they point to) *)
Record jentry := mkJe { je_key : list Z; je_val : list Z }.

(* laik-internal.h Laik_KVS_Changes: the used parts of the arrays and the allocated sizes *)
Record journal := mkJ { j_offsize : Z; j_off : list Z; j_datasize : Z; j_data : list Z; j_entsize : Z; j_ent : list jentry }.

Definition offused (c : journal) : Z := Z.of_nat (length (j_off c)).
Definition dataused (c : journal) : Z := Z.of_nat (length (j_data c)).
Definition entused (c : journal) : Z := Z.of_nat (length (j_ent c)).

(* kvs.c:51-64 laik_kvs_changes_init *)
Definition changes_init : journal := mkJ 0 [] 0 [] 0 [].

(* kvs.c:67-88 laik_kvs_changes_ensure_size *)
Definition ensure_size (c : journal) (n dlen : Z) : outcome journal :=
  cassert (entused c =? 0) (
  let os := if j_offsize c <? n then n else j_offsize c in
  let ds := if j_datasize c <? dlen then dlen else j_datasize c in
  let es := if j_entsize c <? n / 2 then n / 2 else j_entsize c in
  Ok (mkJ os (j_off c) ds (j_data c) es (j_ent c))).

(* kvs.c:91-101 laik_kvs_changes_set_size, with the contents of the arrays up to the new sizes *)
Definition set_size (c : journal) (off data : list Z) : outcome journal :=
  let n := Z.of_nat (length off) in let dlen := Z.of_nat (length data) in
  cassert ((n =? 0) || Z.odd n) (
  cassert (n <=? j_offsize c) (
  cassert (dlen <=? j_datasize c) (
  cassert (n / 2 <=? j_entsize c) (
  Ok (mkJ (j_offsize c) off (j_datasize c) data (j_entsize c) []))))).

(* kvs.c:125-178 laik_kvs_changes_add *)
Definition changes_add (c0 : journal) (key data : list Z) (do_alloc append_sorted : bool) : outcome journal :=
  let klen := Z.of_nat (length key) + 1 in
  let dlen := Z.of_nat (length data) in
  do c <- (if do_alloc then
             let offNeeded := if offused c0 =? 0 then 3 else offused c0 + 2 in
             let dataNeeded := dataused c0 + klen + dlen in
             if (j_offsize c0 <? offNeeded) || (j_datasize c0 <? dataNeeded)
             then ensure_size c0 (2 * offNeeded) (2 * dataNeeded) else Ok c0
           else Ok c0);
  do off <- (if offused c =? 0 then if j_offsize c <? 1 then UB else Ok [0] else Ok (j_off c));
  let ou := Z.of_nat (length off) in
  cassert (ou + 2 <=? j_offsize c) (
  cassert (dataused c + klen + dlen <=? j_datasize c) (
  do marker <- aread off (ou - 1);
  cassert (marker =? dataused c) (
  let data1 := j_data c ++ key ++ [0] in
  let data2 := data1 ++ data in
  let off2 := off ++ [Z.of_nat (length data1); Z.of_nat (length data2)] in
  if negb append_sorted then Ok (mkJ (j_offsize c) off2 (j_datasize c) data2 (j_entsize c) (j_ent c)) else
  cassert (match rev (j_ent c) with [] => true | e :: _ => str_cmp (je_key e) key <? 0 end) (
  cassert (entused c <? j_entsize c) (
  Ok (mkJ (j_offsize c) off2 (j_datasize c) data2 (j_entsize c) (j_ent c ++ [mkJe key data]))))))).

(* kvs.c:181-186 entrycmp *)
Definition entrycmp (a b : jentry) : Z := str_cmp (je_key a) (je_key b).

(* part [from, to) of a block *)
Definition slice (l : list Z) (from to_ : Z) : list Z := firstn (Z.to_nat (to_ - from)) (skipn (Z.to_nat from) l).

(* kvs.c:188-217 the loop of laik_kvs_changes_sort filling the entry array *)
Fixpoint fill_loop (off : list Z) (data : list Z) (entsize : Z) (ents : list jentry) : outcome (list jentry) :=
  match off with
  | o0 :: t =>
    match t with
    | o1 :: t2 =>
      match t2 with
      | o2 :: _ =>
        cassert (Z.of_nat (length ents) <? entsize) (
        cassert (o0 <? o1) (
        cassert (o1 <? o2) (
        cassert (o2 <=? Z.of_nat (length data)) (
        do z <- aread data (o1 - 1);
        cassert (z =? 0) (
        fill_loop t2 data entsize (ents ++ [mkJe (cstr (skipn (Z.to_nat o0) data)) (slice data o1 o2)]))))))
      | [] => Ok ents
      end
    | [] => Ok ents
    end
  | [] => Ok ents
  end.

(* kvs.c:188-221 laik_kvs_changes_sort; [q] is qsort with entrycmp *)
Definition changes_sort (q : list jentry -> list jentry) (c : journal) : outcome journal :=
  if offused c =? 0 then Ok c else
  cassert (Z.odd (offused c)) (
  cassert (entused c =? 0) (
  do ents <- fill_loop (j_off c) (j_data c) (j_entsize c) [];
  cassert (Z.of_nat (length ents) * 2 + 1 =? offused c) (
  Ok (mkJ (j_offsize c) (j_off c) (j_datasize c) (j_data c) (j_entsize c) (q ents))))).

(* kvs.c:232-266 the loops of laik_kvs_changes_merge; [n] is fuel *)
Fixpoint merge_loop (n : nat) (dst : journal) (l1 l2 : list jentry) : outcome journal :=
  match n with O => NoFuel | S n' =>
  match l1, l2 with
  | e1 :: l1', e2 :: l2' =>
    let res := str_cmp (je_key e1) (je_key e2) in
    if res <? 0 then do d <- changes_add dst (je_key e1) (je_val e1) false true; merge_loop n' d l1' l2
    else if res >? 0 then do d <- changes_add dst (je_key e2) (je_val e2) false true; merge_loop n' d l1 l2'
    else
      if negb (Z.of_nat (length (je_val e1)) =? Z.of_nat (length (je_val e2))) ||
         negb (strncmp_eq (je_val e1) (je_val e2) (length (je_val e1))) then Panic
      else do d <- changes_add dst (je_key e1) (je_val e1) false true; merge_loop n' d l1' l2'
  | e1 :: l1', [] => do d <- changes_add dst (je_key e1) (je_val e1) false true; merge_loop n' d l1' []
  | [], e2 :: l2' => do d <- changes_add dst (je_key e2) (je_val e2) false true; merge_loop n' d [] l2'
  | [], [] => Ok dst
  end
  end.

(* kvs.c:223-267 laik_kvs_changes_merge *)
Definition changes_merge (dst src1 src2 : journal) : outcome journal :=
  do d1 <- set_size dst [] [];
  do d2 <- ensure_size d1 (offused src1 + offused src2) (dataused src1 + dataused src2);
  merge_loop (S (length (j_ent src1) + length (j_ent src2))) d2 (j_ent src1) (j_ent src2).

(* ---------- the store ---------- *)

(* laik-internal.h Laik_KVS_Entry of a store: value NULL (vlen 0) is None. The field "data" is not modelled. *)
Record kentry := mkKe { ke_key : list Z; ke_val : option (list Z); ke_upd : bool }.

(* laik-internal.h struct _Laik_KVStore *)
Record store := mkKvs { ks_size : Z; ks_ent : list kentry; ks_sorted : Z; ks_changes : journal; ks_insync : bool }.

Definition used (s : store) : Z := Z.of_nat (length (ks_ent s)).

(* kvs.c:292-313 laik_kvs_new *)
Definition kvs_new : outcome store :=
  do c <- ensure_size changes_init 10 1000;
  Ok (mkKvs 1000 [] 0 c false).

(* kvs.c:475-485 binary search in laik_kvs_entry; [n] is fuel *)
Fixpoint bsearch (n : nat) (l : list kentry) (key : list Z) (low high : Z) : outcome (option nat) :=
  match n with O => NoFuel | S n' =>
  if low <=? high then
    let mid := (low + high) / 2 in
    do e <- aread l mid;
    let res := str_cmp key (ke_key e) in
    if res =? 0 then Ok (Some (Z.to_nat mid))
    else if res <? 0 then bsearch n' l key low (mid - 1)
    else bsearch n' l key (mid + 1) high
  else Ok None
  end.

(* kvs.c:487-492 linear search in laik_kvs_entry, from position [k] *)
Fixpoint lsearch (l : list kentry) (key : list Z) (k : nat) : option nat :=
  match l with
  | [] => None
  | e :: l' => if str_cmp (ke_key e) key =? 0 then Some k else lsearch l' key (S k)
  end.

(* kvs.c:467-496 laik_kvs_entry: the position of the entry for [key] *)
Definition kvs_entry (s : store) (key : list Z) : outcome (option nat) :=
  do r <- bsearch (S (length (ks_ent s))) (ks_ent s) key 0 (ks_sorted s - 1);
  match r with
  | Some i => Ok (Some i)
  | None => Ok (lsearch (skipn (Z.to_nat (ks_sorted s)) (ks_ent s)) key (Z.to_nat (ks_sorted s)))
  end.

(* kvs.c:498-511 laik_kvs_get (with laik_kvs_data): NULL is None *)
Definition kvs_get (s : store) (key : list Z) : outcome (option (list Z)) :=
  do r <- kvs_entry s key;
  match r with
  | None => Ok None
  | Some i => match nth_error (ks_ent s) i with Some e => Ok (ke_val e) | None => UB end
  end.

(* kvs.c:513-517 laik_kvs_count *)
Definition kvs_count (s : store) : Z := used s.

(* kvs.c:519-524 laik_kvs_getn, returning key and value *)
Definition kvs_getn (s : store) (n : Z) : option (list Z * option (list Z)) :=
  if n >=? used s then None else
  match nth_error (ks_ent s) (Z.to_nat n) with Some e => Some (ke_key e, ke_val e) | None => None end.

(* replace the entry at position i *)
Definition put_entry (s : store) (i : nat) (e : kentry) : store :=
  mkKvs (ks_size s) (upd i e (ks_ent s)) (ks_sorted s) (ks_changes s) (ks_insync s).

Definition set_changes (s : store) (c : journal) : store :=
  mkKvs (ks_size s) (ks_ent s) (ks_sorted s) c (ks_insync s).

(* kvs.c:324-338 remove_entry *)
Definition remove_entry (s : store) (i : nat) : outcome store :=
  match nth_error (ks_ent s) i with
  | None => Abort
  | Some e =>
    let s1 := put_entry s i (mkKe (ke_key e) None (ke_upd e)) in
    if ks_insync s then Ok s1 else
    do c <- changes_add (ks_changes s1) (ke_key e) [] true false;
    Ok (set_changes s1 c)
  end.

(* kvs.c:341-348 laik_kvs_clean *)
Definition kvs_clean (s : store) : outcome store :=
  ofold (fun s i => match nth_error (ks_ent s) i with
                    | Some e => match ke_val e with None => Ok s | Some _ => remove_entry s i end
                    | None => UB
                    end) (seq 0 (length (ks_ent s))) s.

(* kvs.c:351-357 laik_kvs_remove *)
Definition kvs_remove (s : store) (key : list Z) : outcome (bool * store) :=
  do r <- kvs_entry s key;
  match r with
  | None => Ok (false, s)
  | Some i => do s' <- remove_entry s i; Ok (true, s')
  end.

(* kvs.c:409-432 the common tail of laik_kvs_set for the entry at position i *)
Definition kvs_store_value (s : store) (i : nat) (e : kentry) (key v : list Z) : outcome store :=
  if ke_upd e && ks_insync s then Panic else
  if ks_insync s then Ok (put_entry s i (mkKe (ke_key e) (Some v) (ke_upd e))) else
  let s1 := put_entry s i (mkKe (ke_key e) (Some v) true) in
  do c <- changes_add (ks_changes s1) key v true false;
  Ok (set_changes s1 c).

(* kvs.c:362-435 laik_kvs_set with a non-NULL value (NULL is kvs_remove) *)
Definition kvs_set (s : store) (key v : list Z) : outcome store :=
  do r <- kvs_entry s key;
  match r with
  | Some i =>
    match nth_error (ks_ent s) i with
    | None => UB
    | Some e =>
      match ke_val e with
      | Some old => do eq <- memcmp_eq old v; if eq then Ok s else kvs_store_value s i e key v
      | None => kvs_store_value s i e key v
      end
    end
  | None =>
    let size := if used s =? ks_size s then ks_size s * 2 else ks_size s in
    if used s >=? size then UB else
    let e := mkKe key None false in
    let s1 := mkKvs size (ks_ent s ++ [e]) (ks_sorted s) (ks_changes s) (ks_insync s) in
    kvs_store_value s1 (length (ks_ent s)) e key v
  end.

(* kvs.c:438-442 laik_kvs_sets: the value is the string with its terminating zero *)
Definition kvs_sets (s : store) (key str : list Z) : outcome store := kvs_set s key (str ++ [0]).

(* kvs.c:547-551 laik_kvs_sort; [q] is qsort with entrycmp on store entries *)
Definition kvs_cmp (a b : kentry) : Z := str_cmp (ke_key a) (ke_key b).
Definition kvs_sort (q : list kentry -> list kentry) (s : store) : store :=
  mkKvs (ks_size s) (q (ks_ent s)) (used s) (ks_changes s) (ks_insync s).

(* kvs.c:277-284 the loop of laik_kvs_changes_apply *)
Fixpoint apply_loop (off : list Z) (data : list Z) (s : store) : outcome store :=
  match off with
  | o0 :: t =>
    match t with
    | o1 :: t2 =>
      match t2 with
      | o2 :: _ =>
        cassert (o1 >? o0) (
        cassert (o2 >? o1) (
        do s' <- kvs_set s (cstr (skipn (Z.to_nat o0) data)) (slice data o1 o2);
        apply_loop t2 data s'))
      | [] => UB
      end
    | [] => Ok s
    end
  | [] => Ok s
  end.

(* kvs.c:269-285 laik_kvs_changes_apply *)
Definition changes_apply (c : journal) (s : store) : outcome store :=
  if offused c =? 0 then Ok s else
  cassert (Z.odd (offused c)) (
  cassert (0 <? dataused c) (
  apply_loop (j_off c) (j_data c) s)).

(* kvs.c:453 and 455-464: before and after the backend's sync function *)
Definition sync_begin (s : store) : store := mkKvs (ks_size s) (ks_ent s) (ks_sorted s) (ks_changes s) true.
Definition sync_end (q : list kentry -> list kentry) (s : store) : outcome store :=
  do c <- set_size (ks_changes s) [] [];
  Ok (kvs_sort q (mkKvs (ks_size s) (map (fun e => mkKe (ke_key e) (ke_val e) false) (ks_ent s)) (ks_sorted s) c false)).

(* backend-mpi.c:1090-1107 sending the journal to the master *)
Definition send_asserts (c : journal) : outcome unit :=
  cassert ((offused c =? 0) || Z.odd (offused c)) (
  if 0 <? offused c then cassert (0 <? dataused c) (Ok tt) else cassert (dataused c =? 0) (Ok tt)).

(* backend-mpi.c:1109-1126 receiving the merged journal [d] in a process other than the master *)
Definition recv_merged (d : journal) (s : store) : outcome store :=
  if 0 <? offused d then
    cassert (0 <? dataused d) (
    do c1 <- ensure_size (ks_changes s) (offused d) (dataused d);
    do c2 <- set_size c1 (j_off d) (j_data d);
    changes_apply c2 (set_changes s c2))
  else cassert (dataused d =? 0) (Ok s).

(* backend-mpi.c:1144-1170 one round of the loop of the master. State: dst, src, recvd, and
   whether dst is kvs->changes *)
Definition mpi_gather (q : list jentry -> list jentry) (st : journal * journal * journal * bool) (p : store)
  : outcome (journal * journal * journal * bool) :=
  let '(dst, src, recvd, own) := st in
  let cp := ks_changes p in
  do u <- send_asserts cp;
  do r1 <- set_size recvd [] [];
  do r2 <- ensure_size r1 (offused cp) (dataused cp);
  if offused cp =? 0 then cassert (dataused cp =? 0) (Ok (dst, src, r2, own)) else
  cassert (0 <? dataused cp) (
  do r3 <- set_size r2 (j_off cp) (j_data cp);
  do r4 <- changes_sort q r3;
  do d <- changes_merge src dst r4;
  Ok (d, dst, r4, negb own)).

(* backend-mpi.c:1080-1190 laik_mpi_sync, for all processes together: the first store is the one of the master.
   The messages are exchanged between the master and each other process in a fixed order, so the
   execution is the sequence of the steps below. *)
Definition mpi_sync (q : list jentry -> list jentry) (l : list store) : outcome (list store) :=
  match l with
  | [] => UB
  | m :: others =>
    do c0 <- changes_sort q (ks_changes m);
    do st <- ofold (mpi_gather q) others (c0, changes_init, changes_init, true);
    let '(dst, src, _, own) := st in
    cassert (dataused dst >? offused dst) (
    do m' <- changes_apply dst (set_changes m (if own : bool then dst else src));
    do others' <- ofold (fun acc p => do p' <- recv_merged dst p; Ok (acc ++ [p'])) others [];
    Ok (m' :: others'))
  end.

(* kvs.c:445-465 laik_kvs_sync called by all processes, MPI backend *)
Definition kvs_sync_mpi (qj : list jentry -> list jentry) (qk : list kentry -> list kentry) (l : list store) : outcome (list store) :=
  do l1 <- mpi_sync qj (map sync_begin l);
  ofold (fun acc p => do p' <- sync_end qk p; Ok (acc ++ [p'])) l1 [].

(* kvs.c:445-465 laik_kvs_sync, single backend: its sync function (backend-single.c:117-121) does nothing *)
Definition kvs_sync_single (qk : list kentry -> list kentry) (s : store) : outcome store := sync_end qk (sync_begin s).
