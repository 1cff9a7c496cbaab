(* Model of process groups (src/core.c) and of the partitioning object
   (src/partitioning.c) *)
From Coq Require Import ZArith List Bool Lia.
From Verif Require Import Base Model_Space Model_RangeList Model_Partitioner.
Import ListNotations.
Open Scope Z_scope.

(* write to array element [n]: outside of the array is undefined *)
Definition awrite {A} (l : list A) (n : Z) (x : A) : outcome (list A) :=
  if (n <? 0) || (Z.of_nat (length l) <=? n) then UB else Ok (upd (Z.to_nat n) x l).


(* the first [g_size] entries of the array locationid *)
Definition locs_of (g : group) : outcome (list Z) :=
  if Z.of_nat (length (g_loc g)) <? g_size g then UB
  else Ok (firstn (Z.to_nat (g_size g)) (g_loc g)).

(* core.c:286-321 laik_create_group and core.c:360-376 laik_clone_group. [gid] is
   inst->group_count; the limit MAX_GROUPS is dropped. *)
Definition clone_group (gid : Z) (g : group) : outcome group :=
  do loc <- locs_of g;
  Ok (mkGroup gid (g_size g) (g_myid g) (Some (g_id g)) (zcount (g_size g)) (zcount (g_size g)) None [] [] loc).

(* core.c:500-503 *)
Definition shrink_mark (size : Z) (f : list Z) (x : Z) : outcome (list Z) :=
  cassert ((0 <=? x) && (x <? size)) (awrite f x (-1)).

(* core.c:505-511: o, fromParent, toParent, locationid *)
Record sstate := mkSst { ss_o : Z; ss_from : list Z; ss_to : list Z; ss_loc : list Z }.
Definition shrink_step (g : group) (s : sstate) (i : Z) : outcome sstate :=
  do v <- aread (ss_from s) i;
  if v <? 0 then Ok s else
  do f <- awrite (ss_from s) i (ss_o s);
  do t <- awrite (ss_to s) (ss_o s) i;
  do lid <- aread (g_loc g) i;
  do lo <- awrite (ss_loc s) (ss_o s) lid;
  Ok (mkSst (ss_o s + 1) f t lo).

(* core.c:493-533 laik_new_shrinked_group without logging and backend notification.
   Array entries beyond the new size are dropped: reading them is undefined. *)
Definition new_shrinked_group (gid : Z) (g : group) (rm : list Z) : outcome group :=
  do g2 <- clone_group gid g;
  do f <- ofold (shrink_mark (g_size g)) rm (map (fun _ => 0) (g_fromParent g2));
  do s <- ofold (shrink_step g) (zcount (g_size g)) (mkSst 0 f (g_toParent g2) (g_loc g2));
  do my <- (if g_myid g <? 0 then Ok (-1) else aread (ss_from s) (g_myid g));
  Ok (mkGroup gid (ss_o s) my (Some (g_id g)) (firstn (Z.to_nat (ss_o s)) (ss_to s)) (ss_from s)
        None [] [] (firstn (Z.to_nat (ss_o s)) (ss_loc s))).

(* core.c:380-384 struct lididx *)
Record lididx := mkLi { li_lid : Z; li_idx : Z }.

(* core.c:386-393 *)
Definition lididx_cmp (a b : lididx) : Z := li_lid a - li_lid b.

(* core.c:402-414 *)
Definition li_of (off : Z) (locs : list Z) : list lididx :=
  map (fun x => mkLi (snd x) (off + fst x)) (combine (zcount (Z.of_nat (length locs))) locs).

(* core.c:418-423 number of different locations *)
Fixpoint count_lids (lastlid : Z) (l : list lididx) : Z :=
  match l with
  | [] => 0
  | x :: l' => if lastlid =? li_lid x then count_lids lastlid l' else 1 + count_lids (li_lid x) l'
  end.

(* core.c:441-466: the loop state *)
Record ustate := mkUst {
  us_gi : Z; us_last : Z; us_my : Z; us_loc : list Z;
  us_to1 : list Z; us_from1 : list Z; us_to2 : list Z; us_from2 : list Z }.

(* core.c:449-457 a new location *)
Definition union_new (myloc : Z) (s : ustate) (x : lididx) : outcome ustate :=
  if us_last s =? li_lid x then Ok s else
  let gi := us_gi s + 1 in
  do lo <- awrite (us_loc s) gi (li_lid x);
  do t1 <- awrite (us_to1 s) gi (-1);
  do t2 <- awrite (us_to2 s) gi (-1);
  Ok (mkUst gi (li_lid x) (if myloc =? li_lid x then gi else us_my s) lo t1 (us_from1 s) t2 (us_from2 s)).

(* core.c:458-465 *)
Definition union_step (myloc size1 : Z) (s0 : ustate) (x : lididx) : outcome ustate :=
  do s <- union_new myloc s0 x;
  if li_idx x <? size1 then
    do f <- awrite (us_from1 s) (li_idx x) (us_gi s);
    do t <- awrite (us_to1 s) (us_gi s) (li_idx x);
    Ok (mkUst (us_gi s) (us_last s) (us_my s) (us_loc s) t f (us_to2 s) (us_from2 s))
  else
    do f <- awrite (us_from2 s) (li_idx x - size1) (us_gi s);
    do t <- awrite (us_to2 s) (us_gi s) (li_idx x - size1);
    Ok (mkUst (us_gi s) (us_last s) (us_my s) (us_loc s) (us_to1 s) (us_from1 s) t f).

(* which group the function returns *)
Inductive ures := UFirst | USecond | UNew (g : group).

(* core.c:396-490 laik_new_union_group. [q] is qsort; [junk] stands for the content of
   fresh memory; [myloc] is inst->mylocationid. Array entries beyond the used sizes are
   dropped. *)
Definition new_union_group (q : list lididx -> list lididx) (junk gid myloc : Z) (g1 g2 : group)
  : outcome ures :=
  do l1 <- locs_of g1;
  do l2 <- locs_of g2;
  let li := q (li_of 0 l1 ++ li_of (g_size g1) l2) in
  let lids := count_lids (-1) li in
  if lids =? g_size g1 then Ok UFirst else
  if lids =? g_size g2 then Ok USecond else
  let fresh := repeat junk (Z.to_nat lids) in
  do s <- ofold (union_step myloc (g_size g1)) li (mkUst (-1) (-1) (-1) fresh fresh fresh fresh fresh);
  Ok (UNew (mkGroup gid lids (us_my s)
    (Some (g_id g1)) (us_to1 s) (firstn (Z.to_nat (g_size g1)) (us_from1 s))
    (Some (g_id g2)) (us_to2 s) (firstn (Z.to_nat (g_size g2)) (us_from2 s)) (us_loc s))).

(* the returned group *)
Definition union_result (g1 g2 : group) (u : ures) : group :=
  match u with UFirst => g1 | USecond => g2 | UNew g => g end.

(* ---------- partitioning object ---------- *)

(* include/laik/space-internal.h RangeListInfo with its data; [other] is the name (pointer)
   of the other partitioning *)
Inductive rlinfo := RIunknown | RIfull | RIsingle (tid : Z) | RIintersect (other : Z).

(* struct _Laik_Partitioning: group and stored range lists, newest first. (The space is
   in the lists; partitioner and other partitioning are given when it is run.) *)
Record partg := mkPartg { pa_space : space; pa_group : group; pa_lists : list (rlinfo * rlist) }.

(* partitioning.c:306-315 laik_partitioning_allranges *)
Fixpoint find_full (l : list (rlinfo * rlist)) : option rlist :=
  match l with
  | [] => None
  | (RIfull, r) :: _ => Some r
  | _ :: l' => find_full l'
  end.
Definition pa_all (p : partg) : option rlist := find_full (pa_lists p).

(* partitioning.c:318-334 laik_partitioning_myranges *)
Fixpoint find_my (me : Z) (l : list (rlinfo * rlist)) : option rlist :=
  match l with
  | [] => None
  | (RIfull, r) :: _ => Some r
  | (RIsingle t, r) :: l' => if t =? me then Some r else find_my me l'
  | _ :: l' => find_my me l'
  end.
Definition pa_my (p : partg) : option rlist := find_my (g_myid (pa_group p)) (pa_lists p).

(* partitioning.c:337-360 laik_partitioning_interranges, same space *)
Fixpoint find_inter (o : Z) (l : list (rlinfo * rlist)) : option rlist :=
  match l with
  | [] => None
  | (RIfull, r) :: _ => Some r
  | (RIintersect o', r) :: l' => if o' =? o then Some r else find_inter o l'
  | _ :: l' => find_inter o l'
  end.

(* partitioning.c:591-615 the map from old to new process ids *)
Definition mig_map (oldg newg : group) : outcome (list Z) :=
  let is a b := match a with Some x => x =? g_id b | None => false end in
  if is (g_parent newg) oldg then Ok (g_fromParent newg)
  else if is (g_parent2 newg) oldg then Ok (g_fromParent2 newg)
  else if is (g_parent oldg) newg then Ok (g_toParent oldg)
  else if is (g_parent2 oldg) newg then Ok (g_toParent2 oldg)
  else Abort.

(* partitioning.c:617-625 one entry *)
Definition mig_entry (qg : list trg -> list trg) (oldg newg : group) (m : list Z) (e : rlinfo * rlist)
  : outcome (rlinfo * rlist) :=
  do i <- match fst e with
          | RIsingle t => cassert (t <? g_size oldg) (do t' <- aread m t; Ok (RIsingle t'))
          | i => Ok i
          end;
  do r <- rl_migrate qg (snd e) m (g_size newg);
  Ok (i, r).

Fixpoint mig_entries qg oldg newg m (l : list (rlinfo * rlist)) : outcome (list (rlinfo * rlist)) :=
  match l with
  | [] => Ok []
  | e :: l' =>
    do e' <- mig_entry qg oldg newg m e;
    do r <- mig_entries qg oldg newg m l';
    Ok (e' :: r)
  end.

(* partitioning.c:589-628 laik_partitioning_migrate *)
Definition pa_migrate (qg : list trg -> list trg) (p : partg) (newg : group) : outcome partg :=
  if g_id (pa_group p) =? g_id newg then Ok p else
  do m <- mig_map (pa_group p) newg;
  do l <- mig_entries qg (pa_group p) newg m (pa_lists p);
  Ok (mkPartg (pa_space p) newg l).

(* partitioning.c:631-641 laik_my_rangecount *)
Definition my_rangecount (p : partg) : outcome Z :=
  let me := g_myid (pa_group p) in
  if me <? 0 then Ok 0 else
  cassert (me <? g_size (pa_group p)) (
  match pa_my p with None => Abort | Some l => rl_tidrangecount l me end).

(* partitioning.c:669-678 laik_my_range *)
Definition my_range (p : partg) (n : Z) : outcome (option trg) :=
  let me := g_myid (pa_group p) in
  if me <? 0 then Ok None else
  match pa_my p with None => Abort | Some l => rl_tidrange l me n end.
