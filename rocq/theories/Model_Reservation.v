(* Model of reservations: src/data.c:346-358, 875-1186. A partitioning is given by its identity,
   the identity of its group, the own id in the group and its own ranges. *)
From Coq Require Import ZArith List Bool Lia.
From Verif Require Import Base Model_Space Model_RangeList Model_Mem Model_Layout Model_Partitioner Model_Transition Model_Data.
Import ListNotations.
Open Scope Z_scope.

(* a, a + 1, ... (n numbers): the values of a loop variable *)
Definition counting (a : Z) (n : nat) : list Z := map (fun k => a + Z.of_nat k) (seq 0 n).

(* what is used of Laik_Partitioning; laik_partitioning_myranges is [pt_ranges] *)
Record part := mkPart { pt_id : nat; pt_group : nat; pt_me : Z; pt_ranges : rlist }.

(* include/laik/data-internal.h Laik_ReservationEntry: partitioning, and the mappings allocated
   for it, each with the number of its base mapping. None is NULL. *)
Record rentry := mkRe { re_part : part; re_maps : option (list (mapping * option Z)) }.
(* Laik_Reservation: its identity, entries, base mappings (mList). The container is a parameter. *)
Record resv := mkResv { rv_id : nat; rv_ents : list rentry; rv_maps : option (list mapping) }.

(* data.c:889-911 laik_reservation_new *)
Definition reservation_new (id : nat) : resv := mkResv id [] None.

(* data.c:914-935 laik_reservation_add *)
Definition reservation_add (r : resv) (p : part) : resv :=
  if pt_me p <? 0 then r else mkResv (rv_id r) (rv_ents r ++ [mkRe p None]) (rv_maps r).

(* data.c:962-972 laik_reservation_getMList: None is NULL. Lists of entries always have res = r *)
Fixpoint getMList_loop (id : nat) (p : part) (l : list rentry) : option mlist :=
  match l with
  | [] => None
  | e :: l' =>
    match re_maps e with
    | Some ms => if Nat.eqb (pt_id (re_part e)) (pt_id p) then Some (mkMl (Some id) None (map fst ms)) else getMList_loop id p l'
    | None => getMList_loop id p l'
    end
  end.
Definition reservation_getMList (r : resv) (p : part) : option mlist := getMList_loop (rv_id r) p (rv_ents r).

(* data.c:336-397 prepareMaps; [act]: active reservation of the container. None: NULL *)
Definition prepare_maps_res (d : dcont) (act : option resv) (p : part) : outcome (option mlist) :=
  if pt_me p <? 0 then Ok None else
  match match act with Some r => reservation_getMList r p | None => None end with
  | Some ml => Ok (Some ml)
  | None => do ml <- prepare_maps d (pt_ranges p) (pt_me p); Ok (Some ml)
  end.

(* data.c:978-983 struct mygroup *)
Record mygroup := mkMg { mg_part : nat; mg_map : Z; mg_res : Z; mg_tag : Z }.
(* data.c:985-992 mygroup_cmp. Tags are int: the difference does not overflow for tags >= -1 *)
Definition mygroup_cmp (a b : mygroup) : Z := mg_tag a - mg_tag b.

(* data.c:1004-1012 all partitionings have the same group *)
Definition same_group (l : list rentry) : bool :=
  match l with [] => true | e :: l' => forallb (fun f => Nat.eqb (pt_group (re_part f)) (pt_group (re_part e))) l' end.

(* data.c:1025-1034 (1a) the map offsets of the own ranges of all partitionings *)
Fixpoint ra_offsets (l : list rentry) : outcome (list rlist) :=
  match l with
  | [] => Ok []
  | e :: l' =>
    let me := pt_me (re_part e) in
    cassert (me >=? 0) (
    do r <- updateMapOffsets (pt_ranges (re_part e)) me;
    cassert (rl_map_tid r =? me) (
    cassert (if rl_map_count r >? 0 then negb (match rl_map_off r with [] => true | _ => false end) else true) (
    do q <- ra_offsets l'; Ok (r :: q))))
  end.

(* data.c:1037-1058 (1b) the groups of ranges with the same map number, for one partitioning *)
Fixpoint ra_groups_of (i : nat) (r : rlist) (maps : list Z) : outcome (list mygroup) :=
  match maps with
  | [] => Ok []
  | k :: l' =>
    do off <- aread (rl_map_off r) k;
    do x <- aread (rl_trs r) off;
    cassert (if rl_map_count r >? 1 then t_tag x >? 0 else true) (
    do q <- ra_groups_of i r l'; Ok (mkMg i k (-1) (t_tag x) :: q))
  end.
Fixpoint ra_groups (i : nat) (l : list rlist) : outcome (list mygroup) :=
  match l with
  | [] => Ok []
  | r :: l' =>
    do a <- ra_groups_of i r (counting 0 (Z.to_nat (rl_map_count r)));
    do q <- ra_groups (S i) l'; Ok (a ++ q)
  end.

(* data.c:1062-1072 (1c) number groups by tag; [no]: resMapNo. Result: groups, last number *)
Fixpoint ra_number (no lastTag : Z) (l : list mygroup) : outcome (list mygroup * Z) :=
  match l with
  | [] => Ok ([], no)
  | g :: l' =>
    let no' := if negb (mg_tag g =? lastTag) then no + 1 else no in
    cassert (no' >=? 0) (
    do q <- ra_number no' (mg_tag g) l';
    Ok (mkMg (mg_part g) (mg_map g) no' (mg_tag g) :: fst q, snd q))
  end.

Definition set_req (m : mapping) (r : range) : mapping :=
  mkMapping r (m_count m) (m_lay m) (m_sec m) (m_alc m) (m_allocCount m) (m_start m) (m_base m) (m_cap m) (m_owner m) (m_reused m).

(* data.c:1113-1116, 1121-1124 extend a range, which may be invalid, by another *)
Definition ra_extend (req r : range) : outcome range :=
  if range_isEmpty req then Ok r else range_expand req r.

(* data.c:1108-1117 one iteration over the ranges of a group. All ranges of a list have the
   list's space *)
Definition ra_range (r : rlist) (g : mygroup) (req : range) (o : Z) : outcome range :=
  do x <- aread (rl_trs r) o;
  cassert (t_mapNo x =? mg_map g) (
  cassert (t_tag x =? mg_tag g) (
  let rg := mkRange (Some (rl_space r)) (t_box x) in
  do s <- range_size rg;
  cassert (s >? 0) (ra_extend req rg))).

(* data.c:1092-1125 (3) one group: link the mapping for it to its base mapping, determine the
   required ranges of both. [bs]: base mappings, [es]: mappings for each partitioning *)
Definition ra_link (d : dcont) (rs : list rlist) (st : list mapping * list (list (mapping * option Z))) (g : mygroup)
  : outcome (list mapping * list (list (mapping * option Z))) :=
  let '(bs, es) := st in
  do ms <- aread es (Z.of_nat (mg_part g));
  cassert (mg_map g <? Z.of_nat (length ms)) (
  do pm <- aread ms (mg_map g);
  cassert (mg_res g <? Z.of_nat (length bs)) (
  do rm <- aread bs (mg_res g);
  cassert (match snd pm with None => true | Some _ => false end) (
  do r <- aread rs (Z.of_nat (mg_part g));
  do a <- aread (rl_map_off r) (mg_map g);
  do b <- aread (rl_map_off r) (mg_map g + 1);
  do req <- ofold (ra_range r g) (counting a (Z.to_nat (b - a))) (m_req (fst pm));
  cassert (match r_space req with Some s => space_eq s (dc_space d) | None => false end) (
  do breq <- ra_extend (m_req rm) req;
  Ok (upd (Z.to_nat (mg_res g)) (set_req rm breq) bs,
      upd (mg_part g) (upd (Z.to_nat (mg_map g)) (set_req (fst pm) req, Some (mg_res g)) ms) es))))).

(* data.c:1133-1155 (4) the base mappings: own layout with one section, allocation; [addr i]:
   address returned when allocating memory for base mapping i *)
Fixpoint ra_alloc (d : dcont) (addr : Z -> Z) (i : Z) (bs : list mapping) : outcome (list mapping) :=
  match bs with
  | [] => Ok []
  | m :: l' =>
    do c <- range_size (m_req m);
    cassert (c >? 0) (
    do ly <- new_layout_lex [m_req m];
    let m1 := mkMapping (m_req m) c (Some ly) 0 (m_alc m) (m_allocCount m) (m_start m) (m_base m) (m_cap m) (m_owner m) (m_reused m) in
    do m2 <- allocate_map (dc_es d) m1 (addr i);
    do q <- ra_alloc d addr (i + 1) l'; Ok (m2 :: q))
  end.

(* data.c:1165-1175 (5) embed one mapping into its base mapping (NULL is dereferenced) *)
Definition ra_embed (d : dcont) (bs : list mapping) (pm : mapping * option Z) : outcome ((mapping * option Z) * list mapping) :=
  match snd pm with
  | None => UB
  | Some n =>
    do b <- aread bs n;
    do c <- range_size (m_req (fst pm));
    let m := fst pm in
    let m1 := mkMapping (m_req m) c (m_lay b) (m_sec b) (m_req b) (m_count b) (m_start m) (m_base m) (m_cap m) (m_owner m) (m_reused m) in
    do mb <- init_embedded (dc_es d) (m_lay b) m1 b;
    Ok ((fst mb, Some n), upd (Z.to_nat n) (snd mb) bs)
  end.
(* data.c:1164-1184 the mappings of one partitioning *)
Fixpoint ra_embeds (d : dcont) (bs : list mapping) (ms : list (mapping * option Z)) : outcome (list (mapping * option Z) * list mapping) :=
  match ms with
  | [] => Ok ([], bs)
  | pm :: l' =>
    do x <- ra_embed d bs pm;
    do q <- ra_embeds d (snd x) l'; Ok (fst x :: fst q, snd q)
  end.
(* data.c:1160-1185 all partitionings *)
Fixpoint ra_embed_all (d : dcont) (bs : list mapping) (es : list (list (mapping * option Z)))
  : outcome (list (list (mapping * option Z)) * list mapping) :=
  match es with
  | [] => Ok ([], bs)
  | ms :: l' =>
    do x <- ra_embeds d bs ms;
    do q <- ra_embed_all d (snd x) l'; Ok (fst x :: fst q, snd q)
  end.

(* data.c:997-1186 laik_reservation_alloc; [q]: qsort with mygroup_cmp. Only the map offsets
   cached in the own ranges change in the partitionings: not kept here. *)
Definition reservation_alloc (q : list mygroup -> list mygroup) (d : dcont) (addr : Z -> Z) (r : resv) : outcome resv :=
  match rv_ents r with
  | [] => Ok r
  | e :: _ =>
    cassert (same_group (rv_ents r)) (
    if pt_me (re_part e) <? 0 then Ok r else
    do rs <- ra_offsets (rv_ents r);
    do gs <- ra_groups 0 rs;
    do n <- ra_number (-1) (-1) (q gs);
    let bs := repeat init_mapping (Z.to_nat (snd n + 1)) in
    let es := map (fun l => repeat (init_mapping, None) (Z.to_nat (rl_map_count l))) rs in
    do st <- ofold (ra_link d rs) (fst n) (bs, es);
    do bs1 <- ra_alloc d addr 0 (fst st);
    do x <- ra_embed_all d bs1 (snd st);
    Ok (mkResv (rv_id r) (map (fun p => mkRe (re_part (fst p)) (Some (snd p))) (combine (rv_ents r) (fst x))) (Some (snd x))))
  end.

(* data.c:938-958 laik_reservation_free: addresses given to free *)
Definition reservation_free (r : resv) : outcome (list Z) :=
  cassert (forallb (fun e => match re_maps e with Some _ => true | None => false end) (rv_ents r)) (
  match rv_maps r with
  | None => Ok []
  | Some bs => free_list (Some (mkMl None None bs))
  end).
