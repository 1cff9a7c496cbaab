(* Model of the memory management of data containers: src/data.c:252-872, 1294-1600.
   Layouts are lexicographical ones (the default layout factory). Statistics and log
   output are dropped. Addresses are integers, 0 is NULL. *)
From Coq Require Import ZArith List Bool Lia.
From Verif Require Import Base Model_Space Model_RangeList Model_Mem Model_Layout Model_Partitioner Model_Transition.
Import ListNotations.
Open Scope Z_scope.

(* include/laik/data-internal.h Laik_Mapping. [m_lay] None: the layout of the mapping list
   (the same object: laik_layout_t reuse changes it in place), Some: an own layout object
   (reservations). [m_owner]: an allocator is set. The number of a mapping is its position in
   the list; the link to the base mapping is kept in the reservation (Model_Reservation). *)
Record mapping := mkMapping {
  m_req : range; m_count : Z; m_lay : option lexlayout; m_sec : Z;
  m_alc : range; m_allocCount : Z; m_start : Z; m_base : Z; m_cap : Z;
  m_owner : bool; m_reused : Z }.

(* Laik_MappingList. [ml_res]: number of the reservation it belongs to *)
Record mlist := mkMl { ml_res : option nat; ml_lay : option lexlayout; ml_maps : list mapping }.

(* what is used of Laik_Data: element size, space, memory provided by the user
   (laik_data_provide_memory, data.c:1440-1444): start and size. The allocator of the
   container is set (default: malloc/free). *)
Record dcont := mkDc { dc_es : Z; dc_space : space; dc_map0 : option (Z * Z) }.

(* data.c:252-275 initMapping. The box of the invalid range is never read. *)
Definition no_range : range := mkRange None zbox.
Definition init_mapping : mapping := mkMapping no_range 0 None 0 no_range 0 0 0 0 true (-1).

(* layout of a mapping; m->layout *)
Definition lay_of (ml : mlist) (m : mapping) : option lexlayout :=
  match m_lay m with Some l => Some l | None => ml_lay ml end.
(* the mapping as seen by the functions of the layout *)
Definition lmap_of (es : Z) (ml : mlist) (m : mapping) : outcome lmap :=
  match lay_of ml m with
  | None => UB
  | Some l => Ok (mkLmap l (m_sec m) (m_start m) es (m_req m))
  end.

(* data.c:303-330 coveringRanges: the ranges covering the task ranges with the same map
   number; [cur] is the range of map [mapNo] so far. *)
Fixpoint cover_loop (sp : space) (mapNo : Z) (cur : range) (l : list trg) : outcome (list range) :=
  match l with
  | [] => Ok [cur]
  | x :: l' =>
    if t_mapNo x =? mapNo then
      do r <- range_expand cur (mkRange (Some sp) (t_box x)); cover_loop sp mapNo r l'
    else
      cassert (mapNo + 1 =? t_mapNo x) (
      do r <- cover_loop sp (mapNo + 1) (mkRange (Some sp) (t_box x)) l'; Ok (cur :: r))
  end.
Definition covering_ranges (n : Z) (sp : space) (l : list trg) : outcome (list range) :=
  if n =? 0 then Ok [] else
  match l with
  | [] => Ok []
  | x :: l' => cassert (0 =? t_mapNo x) (cover_loop sp 0 (mkRange (Some sp) (t_box x)) l')
  end.

(* data.c:468-495 laik_map_set_allocation; [a]: an allocator is given *)
Definition map_set_allocation (es : Z) (m : mapping) (start size : Z) (a : bool) : outcome mapping :=
  cassert (m_start m =? 0) (
  cassert (m_base m =? 0) (
  do c <- range_size (m_req m);
  cassert (m_count m =? c) (
  cassert (size >=? m_count m * es) (
  Ok (mkMapping (m_req m) (m_count m) (m_lay m) (m_sec m) (m_req m) (m_count m) start start size a (m_reused m)))))).

(* data.c:373-391 the loop of prepareMaps *)
Fixpoint prepare_loop (d : dcont) (mapNo : Z) (ranges : list range) : outcome (list mapping) :=
  match ranges with
  | [] => Ok []
  | r :: rest =>
    do c <- range_size r;
    let m := mkMapping r c None mapNo no_range 0 0 0 0 true (-1) in
    do m1 <- (match dc_map0 d with
              | Some (b, size) => if mapNo =? 0 then map_set_allocation (dc_es d) m b size false else Ok m
              | None => Ok m
              end);
    do q <- prepare_loop d (mapNo + 1) rest; Ok (m1 :: q)
  end.

(* data.c:336-397 prepareMaps without an active reservation, [l]: own ranges of the
   partitioning, [myid] >= 0 *)
Definition prepare_maps (d : dcont) (l : rlist) (myid : Z) : outcome mlist :=
  match rl_off l with
  | None => UB
  | Some off =>
    do a <- aread off myid;
    do b <- aread off (myid + 1);
    do n <- (if b - a >? 0 then do x <- aread (rl_trs l) (b - 1); Ok (t_mapNo x + 1) else Ok 0);
    do ranges <- covering_ranges n (rl_space l) (aslice (rl_trs l) a b);
    do lay <- (if n >? 0 then omap Some (new_layout_lex ranges) else Ok None);
    do maps <- prepare_loop d 0 ranges;
    Ok (mkMl None lay maps)
  end.

(* data.c:609-630 initEmbeddedMapping: new toMap and fromMap. [lay]: layout of toMap (already
   changed by the reuse check) *)
Definition init_embedded (es : Z) (lay : option lexlayout) (toMap fromMap : mapping) : outcome (mapping * mapping) :=
  do w <- range_within_range (m_req toMap) (m_alc fromMap);
  cassert w (
  match lay with
  | None => Abort
  | Some l =>
    do off <- offset_lex l (m_sec toMap) (b_from (r_box (m_req toMap)));
    Ok (mkMapping (m_req toMap) (m_count toMap) (m_lay toMap) (m_sec toMap) (m_alc fromMap) (m_allocCount fromMap)
          (m_start fromMap) (m_start fromMap + off * es) (m_cap fromMap) (m_owner fromMap) (m_reused toMap),
        mkMapping (m_req fromMap) (m_count fromMap) (m_lay fromMap) (m_sec fromMap) (m_alc fromMap) (m_allocCount fromMap)
          (m_start fromMap) (m_base fromMap) (m_cap fromMap) false (m_reused fromMap))
  end).
Definition set_reused (m : mapping) (i : Z) : mapping :=
  mkMapping (m_req m) (m_count m) (m_lay m) (m_sec m) (m_alc m) (m_allocCount m)
    (m_start m) (m_base m) (m_cap m) (m_owner m) i.

(* data.c:653-667 inner loop of checkMapReuse: number of the first old map usable for new map
   [i], and the changed new layout *)
Fixpoint reuse_find (tolay : lexlayout) (i : Z) (fromlay : lexlayout) (sNo : Z) (fmaps : list mapping)
  : outcome (option (Z * lexlayout)) :=
  match fmaps with
  | [] => Ok None
  | f :: r =>
    if m_base f =? 0 then reuse_find tolay i fromlay (sNo + 1) r else
    if m_reused f >=? 0 then reuse_find tolay i fromlay (sNo + 1) r else
    do x <- reuse_lex tolay i fromlay sNo;
    if fst x then Ok (Some (sNo, snd x)) else reuse_find tolay i fromlay (sNo + 1) r
  end.
(* data.c:650-691 the loop of checkMapReuse over the new maps [tmaps], [done]: those already
   handled. All new maps use the layout of the list. *)
Fixpoint reuse_loop (es : Z) (fromlay : lexlayout) (i : Z) (tmaps : list mapping) (tolay : lexlayout) (fmaps : list mapping)
  : outcome (list mapping * lexlayout * list mapping) :=
  match tmaps with
  | [] => Ok ([], tolay, fmaps)
  | t :: rest =>
    do x <- reuse_find tolay i fromlay 0 fmaps;
    match x with
    | None =>
      do q <- reuse_loop es fromlay (i + 1) rest tolay fmaps;
      Ok (t :: fst (fst q), snd (fst q), snd q)
    | Some (sNo, tolay') =>
      do f <- aread fmaps sNo;
      do tf <- init_embedded es (match m_lay t with Some l => Some l | None => Some tolay' end) t f;
      cassert (if m_owner (fst tf) then true else negb (m_start (fst tf) =? 0)) (
      do q <- reuse_loop es fromlay (i + 1) rest tolay' (upd (Z.to_nat sNo) (set_reused (snd tf) i) fmaps);
      Ok (fst tf :: fst (fst q), snd (fst q), snd q))
    end
  end.
(* data.c:637-692 checkMapReuse: new lists. A list NULL is None. A list with maps but no
   layout is dereferenced. *)
Definition check_map_reuse (es : Z) (tl : mlist) (fl : option mlist) : outcome (mlist * option mlist) :=
  match fl with
  | None => Ok (tl, fl)
  | Some f =>
    match ml_maps f, ml_maps tl with
    | [], _ | _, [] => Ok (tl, fl)
    | _, _ =>
      match ml_res f, ml_res tl with
      | None, None =>
        match ml_lay f, ml_lay tl with
        | Some lf, Some lt =>
          do q <- reuse_loop es lf 0 (ml_maps tl) lt (ml_maps f);
          Ok (mkMl None (Some (snd (fst q))) (fst (fst q)), Some (mkMl None (Some lf) (snd q)))
        | _, _ => UB
        end
      | _, _ => Ok (tl, fl)
      end
    end
  end.

(* data.c:499-530 laik_allocateMap; [a]: address returned by the allocator *)
Definition allocate_map (es : Z) (m : mapping) (a : Z) : outcome mapping :=
  if negb (m_base m =? 0) then Ok m else
  if m_count m =? 0 then Ok m else
  cassert (m_owner m) (
  if a =? 0 then Panic else
  map_set_allocation es m a (m_count m * es) true).
(* data.c:743-758 allocateMappings; [addr i]: address returned when allocating memory for map i *)
Fixpoint allocate_loop (es : Z) (res : option nat) (addr : Z -> Z) (i : Z) (l : list mapping) : outcome (list mapping) :=
  match l with
  | [] => Ok []
  | m :: r =>
    do m1 <- (if negb (m_base m =? 0) then Ok m else
              cassert (match res with None => true | Some _ => false end) (
              cassert (m_owner m) (allocate_map es m (addr i))));
    do q <- allocate_loop es res addr (i + 1) r; Ok (m1 :: q)
  end.
Definition allocate_mappings (es : Z) (addr : Z -> Z) (tl : mlist) : outcome mlist :=
  do l <- allocate_loop es (ml_res tl) addr 0 (ml_maps tl);
  Ok (mkMl (ml_res tl) (ml_lay tl) l).

(* data.c:533-546 laik_data_copy; [gen]: only generic functions (LAIK_LAYOUT_GENERIC,
   layout.c:250-258) *)
Definition data_copy (gen : bool) (sp : space) (b : box) (f t : lmap) (m : mem) : outcome mem :=
  if gen then copy_gen sp b (gmap_of f) (gmap_of t) m else copy_lex b f t m.

(* data.c:561-600 one iteration of copyMaps *)
Definition copy_map (gen : bool) (d : dcont) (tl fl : mlist) (m : mem) (op : localTOp) : outcome mem :=
  cassert (lo_fromMapNo op <? Z.of_nat (length (ml_maps fl))) (
  do f <- aread (ml_maps fl) (lo_fromMapNo op);
  cassert (lo_toMapNo op <? Z.of_nat (length (ml_maps tl))) (
  do t <- aread (ml_maps tl) (lo_toMapNo op);
  if m_count t =? 0 then Ok m else
  if m_base f =? 0 then Ok m else
  do lf <- lmap_of (dc_es d) fl f;
  do lt <- lmap_of (dc_es d) tl t;
  if m_reused f =? lo_toMapNo op then
    do fo <- offset_lex (lm_layout lf) (m_sec f) (b_from (lo_box op));
    do to_ <- offset_lex (lm_layout lt) (m_sec t) (b_from (lo_box op));
    cassert (m_start f + fo * dc_es d =? m_start t + to_ * dc_es d) (Ok m)
  else data_copy gen (dc_space d) (lo_box op) lf lt m)).
(* data.c:549-601 copyMaps *)
Definition copy_maps (gen : bool) (d : dcont) (ops : list localTOp) (tl : mlist) (fl : option mlist) (m : mem) : outcome mem :=
  cassert (match ops with [] => false | _ => true end) (
  match fl with
  | None => Abort
  | Some f =>
    if match ml_res f, ml_res tl with Some a, Some b => Nat.eqb a b | _, _ => false end then Ok m else
    ofold (copy_map gen d tl f) ops m
  end).

(* data.c:703-740 one iteration of initMaps. Borders are truncated to int. [ini]: type->init
   for a number of elements *)
Definition init_map (d : dcont) (ini : mem -> Z -> Z -> redop -> outcome mem) (tl : mlist) (m : mem) (op : initTOp) : outcome mem :=
  cassert (it_mapNo op <? Z.of_nat (length (ml_maps tl))) (
  do t <- aread (ml_maps tl) (it_mapNo op);
  if m_count t =? 0 then Ok m else
  cassert (negb (m_base t =? 0)) (
  cassert (Nat.eqb (sp_dims (dc_space d)) 1) (
  let from := int32 (i0 (b_from (it_box op))) in
  let to := int32 (i0 (b_to (it_box op))) in
  let lo := i0 (b_from (r_box (m_req t))) in
  cassert (from >=? lo) (
  ini m (m_base t + (from - lo) * dc_es d) (to - from) (it_redOp op))))).
(* data.c:695-741 initMaps *)
Definition init_maps (d : dcont) (ini : mem -> Z -> Z -> redop -> outcome mem) (ops : list initTOp) (tl : mlist) (m : mem) : outcome mem :=
  cassert (match ops with [] => false | _ => true end) (ofold (init_map d ini tl) ops m).

(* data.c:401-436 freeMap: address given to free, if any *)
Definition free_map (m : mapping) : list Z :=
  if m_start m =? 0 then [] else
  if m_reused m >=? 0 then [] else
  if m_owner m then [m_start m] else [].
(* data.c:441-460 freeMappingList: addresses freed. Layout objects are not tracked. *)
Definition free_list (fl : option mlist) : outcome (list Z) :=
  match fl with
  | None => Ok []
  | Some f => cassert (match ml_res f with None => true | Some _ => false end) (Ok (flat_map free_map (ml_maps f)))
  end.

(* data.c:779-872 doTransition for a transition [o] with local and init operations, and the
   communication operations executed by the backend ([exec]: on the new and old mappings).
   Result: new mapping list, memory, addresses freed. Statistics and preparation of the
   action sequence are not part of this. *)
Definition do_transition (gen : bool) (d : dcont) (ini : mem -> Z -> Z -> redop -> outcome mem)
    (exec : mlist -> option mlist -> mem -> outcome mem)
    (addr : Z -> Z) (o : tops) (fl : option mlist) (tl : mlist) (m : mem) : outcome (mlist * mem * list Z) :=
  do r <- check_map_reuse (dc_es d) tl fl;
  do t <- allocate_mappings (dc_es d) addr (fst r);
  do m1 <- (match tp_send o, tp_recv o, tp_red o with
            | [], [], [] => Ok m
            | _, _, _ => exec t (snd r) m
            end);
  do m2 <- (match tp_local o with [] => Ok m1 | _ => copy_maps gen d (tp_local o) t (snd r) m1 end);
  do m3 <- (match tp_init o with [] => Ok m2 | _ => init_maps d ini (tp_init o) t m2 end);
  do fr <- (match snd r with
            | Some f => match ml_res f with None => free_list (Some f) | Some _ => Ok [] end
            | None => Ok []
            end);
  Ok (t, m3, fr).

(* data.c:787-795 doTransition without a transition: [fl] is dereferenced *)
Definition do_no_transition (fl : option mlist) : outcome (list Z) :=
  match fl with
  | None => UB
  | Some f => match ml_res f with None => free_list fl | Some _ => Ok [] end
  end.

(* data.c:1373-1383 laik_set_initial_partitioning: the new active mappings *)
Definition set_initial (d : dcont) (act : option mlist) (l : rlist) (myid : Z) : outcome mlist :=
  cassert (match act with None => true | Some _ => false end) (prepare_maps d l myid).

(* data.c:1617-1622 laik_free: addresses freed. The active mappings are not looked at. *)
Definition free_data (act : option mlist) : list Z := [].

(* ---------- access, data.c:1402-1605 ---------- *)

(* data.c:1447-1460 laik_get_map for the active mappings; None: NULL *)
Definition get_map (act : option mlist) (n : Z) : outcome (option mapping) :=
  match act with
  | None => Abort
  | Some ml =>
    if (n <? 0) || (n >=? Z.of_nat (length (ml_maps ml))) then Ok None else
    do m <- aread (ml_maps ml) n;
    cassert (negb (m_base m =? 0)) (Ok (Some m))
  end.
(* data.c:1409-1416 laik_get_map_addr; 0 is NULL *)
Definition get_map_addr (es : Z) (act : option mlist) (n : Z) (i : index) : outcome Z :=
  do x <- get_map act n;
  match x, act with
  | Some m, Some ml =>
    match lay_of ml m with
    | None => Abort
    | Some l => do o <- offset_lex l (m_sec m) i; Ok (m_base m + o * es)
    end
  | _, _ => Ok 0
  end.
(* data.c:1463-1475 laik_get_map_1d: base and count *)
Definition get_map_1d (act : option mlist) (n : Z) : outcome (Z * Z) :=
  do x <- get_map act n;
  Ok (match x with None => (0, 0) | Some m => (m_base m, m_count m) end).
(* data.c:1479-1506 laik_get_map_2d: base, ysize, ystride, xsize. Without a map, ystride is
   not set: 0 here. *)
Definition get_map_2d (act : option mlist) (n : Z) : outcome (Z * Z * Z * Z) :=
  do x <- get_map act n;
  match x, act with
  | Some m, Some ml =>
    match lay_of ml m with
    | None => Abort
    | Some l =>
      let b := r_box (m_req m) in
      do s1 <- lex_stride l (m_sec m) 1;
      Ok (m_base m, i1 (b_to b) - i1 (b_from b), s1, i0 (b_to b) - i0 (b_from b))
    end
  | _, _ => Ok (0, 0, 0, 0)
  end.
(* data.c:1510-1542 laik_get_map_3d: base, zsize, zstride, ysize, ystride, xsize *)
Definition get_map_3d (act : option mlist) (n : Z) : outcome (Z * Z * Z * Z * Z * Z) :=
  do x <- get_map act n;
  match x, act with
  | Some m, Some ml =>
    match lay_of ml m with
    | None => Abort
    | Some l =>
      let b := r_box (m_req m) in
      do s1 <- lex_stride l (m_sec m) 1;
      do s2 <- lex_stride l (m_sec m) 2;
      Ok (m_base m, i2 (b_to b) - i2 (b_from b), s2, i1 (b_to b) - i1 (b_from b), s1, i0 (b_to b) - i0 (b_from b))
    end
  | _, _ => Ok (0, 0, 0, 0, 0, 0)
  end.

(* data.c:1561-1579 laik_global2maplocal_1d: map number and local index; None: NULL. (data.c:1545-1558
   laik_global2local_1d is the same without the map number.) *)
Fixpoint g2l_loop (gidx i : Z) (l : list mapping) : option (Z * Z) :=
  match l with
  | [] => None
  | m :: r =>
    if gidx <? i0 (b_from (r_box (m_req m))) then g2l_loop gidx (i + 1) r else
    if gidx >=? i0 (b_to (r_box (m_req m))) then g2l_loop gidx (i + 1) r else
    Some (i, gidx - i0 (b_from (r_box (m_req m))))
  end.
Definition global2maplocal_1d (d : dcont) (act : option mlist) (gidx : Z) : outcome (option (Z * Z)) :=
  cassert (Nat.eqb (sp_dims (dc_space d)) 1) (
  match act with
  | None => Ok None
  | Some ml => Ok (g2l_loop gidx 0 (ml_maps ml))
  end).
(* data.c:1582-1593 laik_local2global_1d *)
Definition local2global_1d (d : dcont) (act : option mlist) (off : Z) : outcome Z :=
  cassert (Nat.eqb (sp_dims (dc_space d)) 1) (
  match act with
  | None => Abort
  | Some ml =>
    cassert (Z.of_nat (length (ml_maps ml)) =? 1) (
    do m <- aread (ml_maps ml) 0;
    cassert (off <? m_count m) (Ok (i0 (b_from (r_box (m_req m))) + off)))
  end).
(* data.c:1596-1607 laik_maplocal2global_1d: the map number is not checked *)
Definition maplocal2global_1d (d : dcont) (act : option mlist) (mapNo li : Z) : outcome Z :=
  cassert (Nat.eqb (sp_dims (dc_space d)) 1) (
  match act with
  | None => Abort
  | Some ml =>
    do m <- aread (ml_maps ml) mapNo;
    cassert (li <? m_count m) (Ok (i0 (b_from (r_box (m_req m))) + li))
  end).

(* the memory blocks requested from the allocator by doTransition (data.c:806, 499-530): address
   and size, for the maps which are not backed by memory after the reuse check *)
Fixpoint alloc_blocks (es : Z) (addr : Z -> Z) (i : Z) (l : list mapping) : list (Z * Z) :=
  match l with
  | [] => []
  | m :: r => (if (m_base m =? 0) && negb (m_count m =? 0) then [(addr i, m_count m * es)] else []) ++ alloc_blocks es addr (i + 1) r
  end.
Definition alloc_calls (es : Z) (addr : Z -> Z) (tl : mlist) (fl : option mlist) : list (Z * Z) :=
  match check_map_reuse es tl fl with Ok (t, _) => alloc_blocks es addr 0 (ml_maps t) | _ => [] end.
