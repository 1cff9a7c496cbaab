(* Model of log messages (src/logging.c): the message buffer, filtering, breaking of a
   message into printed lines. Characters are their codes; a C string is the list of its
   characters without the final 0. *)
From Coq Require Import ZArith List Bool Lia.
From Verif Require Import Base.
Import ListNotations.
Open Scope Z_scope.

(* core.h:224-231 LAIK_LL_* *)
Definition LL_None := 0.
Definition LL_Warning := 3.
Definition LL_Error := 4.
Definition LL_Panic := 5.

(* the two characters log_flush looks for *)
Definition ch_sp := 32.
Definition ch_nl := 10.

(* logging.c:26-41 and 176-179, the static variables. lg_inst: location id of laik_loginst
   (None if there is no instance); lg_size is 0 without a buffer; lg_text: the first
   current_logPos characters of the buffer, which end with 0. lg_count numbers the printed
   messages and stands for laik_logctr, the message counter and the clock, which are only
   used for the prefix of a line *)
Record lstate := mkLstate {
  lg_level : Z; lg_from : Z; lg_to : Z; lg_inst : option Z;
  lg_cur : Z; lg_size : Z; lg_text : list Z; lg_count : Z }.

(* logging.c:141-145 laik_set_loglevel *)
Definition set_loglevel (s : lstate) (l : Z) : lstate :=
  mkLstate l (lg_from s) (lg_to s) (lg_inst s) (lg_cur s) (lg_size s) (lg_text s) (lg_count s).

Definition set_cur (s : lstate) (l : Z) : lstate :=  (* assignment to current_logLevel *)
  mkLstate (lg_level s) (lg_from s) (lg_to s) (lg_inst s) l (lg_size s) (lg_text s) (lg_count s).
Definition set_buf (s : lstate) (n : Z) (t : list Z) : lstate :=  (* assignment to current_logSize, current_logPos *)
  mkLstate (lg_level s) (lg_from s) (lg_to s) (lg_inst s) (lg_cur s) n t (lg_count s).

(* logging.c:181-206 laik_log_begin; malloc failure dropped *)
Definition log_begin (s : lstate) (l : Z) : outcome (lstate * bool) :=
  if l <? lg_level s then Ok (set_cur s LL_None, false) else
  let go := Ok (set_buf (set_cur s l) (if lg_size s =? 0 then 1024 else lg_size s) [], true) in
  match lg_inst s with
  | Some me =>
      if 0 <=? lg_from s then
        cassert (lg_from s <=? lg_to s)
          (if (me <? lg_from s) || (lg_to s <? me) then Ok (set_cur s LL_None, false) else go)
      else go
  | None => go
  end.

Definition zlen {A} (l : list A) : Z := Z.of_nat (length l).

(* logging.c:208-239 log_append; [m] is the text vsnprintf produces. Overflow of int in the
   buffer size and failure of realloc dropped *)
Definition log_append (s : lstate) (m : list Z) : outcome lstate :=
  if lg_cur s =? LL_None then Ok s else
  let left := lg_size s - zlen (lg_text s) in
  cassert (0 <? left)
    (if left <=? zlen m then
       let size := 2 * lg_size s in
       let size := if size <? zlen m + 1 then zlen m + 1 else size in
       let left := size - zlen (lg_text s) in
       cassert (zlen m <? left) (Ok (set_buf s size (lg_text s ++ m)))
     else Ok (set_buf s (lg_size s) (lg_text s ++ m))).

(* logging.c:281-283 LINE_LEN and the size of buf2 *)
Definition LINE_LEN := 100.
Definition BUF2 := 150 + LINE_LEN.

(* logging.c:339-355, the inner loop of log_flush: position of the end of this line, and
   whether it is a newline. [rest]: the characters from offset [off] on; [lb]: last_break *)
Fixpoint log_scan (spaces off1 off lb : Z) (rest : list Z) : Z * bool :=
  match rest with
  | [] => (off, false)
  | c :: r =>
      if c =? ch_nl then (off, true) else
      if c =? ch_sp then
        if LINE_LEN <? spaces + (off - off1) then ((if lb =? 0 then off else lb), false)
        else log_scan spaces off1 (off + 1) off r
      else log_scan spaces off1 (off + 1) lb r
  end.

(* logging.c:329 skipping of the indent *)
Fixpoint log_indent (rest : list Z) : Z * list Z :=
  match rest with
  | c :: r => if c =? ch_sp then let '(n, r') := log_indent r in (n + 1, r') else (0, rest)
  | [] => (0, [])
  end.

Definition blanks (n : Z) : list Z := repeat ch_sp (Z.to_nat n).

(* logging.c:263-269 and 320-322: "Warning: ", "ERROR  : ", "PANIC  : " in the first line,
   9 spaces in the others, nothing for other levels *)
Definition log_lstr (l k : Z) : list Z :=
  if (l =? LL_Warning) || (l =? LL_Error) || (l =? LL_Panic) then
    if k =? 1 then
      if l =? LL_Warning then [87; 97; 114; 110; 105; 110; 103; 58; 32] else
      if l =? LL_Error then [69; 82; 82; 79; 82; 32; 32; 58; 32] else
      [80; 65; 78; 73; 67; 32; 32; 58; 32]
    else repeat ch_sp 7 ++ [58; 32]
  else [].

(* logging.c:304-322, the start of line [k]. [pf k] is the part with location, counters
   and time (lines 305-319) *)
Definition log_prefix (pf : Z -> list Z) (l k : Z) : list Z :=
  (if k =? 1 then [61; 61; 32] else [46; 46; 32]) ++ pf k ++ log_lstr l k.

(* logging.c:299-364, the loop of log_flush: the lines printed. [rest]: characters from
   offset [off1] on, [k]: line_counter before the iteration. Writing behind the end of buf2
   is undefined behaviour; the assert of line 360 is only evaluated afterwards *)
Fixpoint log_lines (fuel : nat) (pf : Z -> list Z) (l : Z) (rest : list Z) (off1 spaces : Z) (nl : bool) (k : Z)
  : outcome (list (list Z)) :=
  match rest with
  | [] => Ok []
  | _ =>
    match fuel with
    | O => NoFuel
    | S fuel =>
      let k := k + 1 in
      let '(n, rest1) := if nl then log_indent rest else (0, rest) in
      let spaces := if nl then n else spaces in
      let off1 := off1 + n in
      let '(off, nl') := log_scan spaces off1 off1 0 rest1 in
      let n1 := Z.to_nat (off - off1) in
      let line := log_prefix pf l k ++ blanks (if nl then spaces else spaces + 4) ++ firstn n1 rest1 ++ [ch_nl] in
      if BUF2 <=? zlen line then UB else
      let rest2 := skipn n1 rest1 in
      do r <- log_lines fuel pf l (tl rest2) (match rest2 with [] => off | _ => off + 1 end) spaces nl' k;
      Ok (line :: r)
    end
  end.

(* logging.c:257-369 log_flush: the lines printed, and how it returns ([Panic]: line 368).
   [pf] gets the number of the message *)
Definition log_flush (pf : Z -> Z -> list Z) (s : lstate) : list (list Z) * outcome lstate :=
  if lg_cur s =? LL_None then ([], Ok s) else
  match lg_text s with
  | [] => ([], Ok s)
  | _ =>
    match log_lines (length (lg_text s)) (pf (lg_count s)) (lg_cur s) (lg_text s) 0 0 true 0 with
    | Ok ls =>
        (ls, if lg_cur s =? LL_Panic then Panic
             else Ok (mkLstate (lg_level s) (lg_from s) (lg_to s) (lg_inst s) (lg_cur s) (lg_size s) [] (lg_count s + 1)))
    | Abort => ([], Abort)
    | Panic => ([], Panic)
    | UB => ([], UB)
    | NoFuel => ([], NoFuel)
    end
  end.

(* calls of a program; the text of a call is what its format expands to *)
Inductive lcall :=
| LBegin (l : Z)
| LAppend (m : list Z)
| LFlush (m : option (list Z))
| LLog (l : Z) (m : list Z)
| LPanic (m : list Z)
| LSet (l : Z).

Definition then_flush (pf : Z -> Z -> list Z) (x : outcome lstate) : list (list Z) * outcome lstate :=
  match x with
  | Ok s => log_flush pf s
  | Abort => ([], Abort)
  | Panic => ([], Panic)
  | UB => ([], UB)
  | NoFuel => ([], NoFuel)
  end.

(* logging.c:385-395 laik_log *)
Definition log_log (pf : Z -> Z -> list Z) (s : lstate) (l : Z) (m : list Z) : list (list Z) * outcome lstate :=
  match log_begin s l with
  | Ok (s', true) => then_flush pf (log_append s' m)
  | Ok (s', false) => ([], Ok s')
  | _ => ([], Abort)
  end.

(* logging.c:181 laik_log_begin, 241-249 laik_log_append, 371-383 laik_log_flush,
   385-395 laik_log, 398-401 laik_panic, 142-145 laik_set_loglevel *)
Definition lstep (pf : Z -> Z -> list Z) (s : lstate) (c : lcall) : list (list Z) * outcome lstate :=
  match c with
  | LBegin l => ([], do r <- log_begin s l; Ok (fst r))
  | LAppend m => ([], log_append s m)
  | LFlush None => log_flush pf s
  | LFlush (Some m) => then_flush pf (log_append s m)
  | LLog l m => log_log pf s l m
  | LPanic m => log_log pf s LL_Panic m
  | LSet l => ([], Ok (set_loglevel s l))
  end.

(* a program's calls one after the other: the lines printed, and how it ends *)
Fixpoint llife (pf : Z -> Z -> list Z) (s : lstate) (cs : list lcall) : list (list Z) * outcome lstate :=
  match cs with
  | [] => ([], Ok s)
  | c :: r =>
      let '(o, x) := lstep pf s c in
      match x with
      | Ok s' => let '(o', y) := llife pf s' r in (o ++ o', y)
      | _ => (o, x)
      end
  end.

(* logging.c:26-41, 176-179: before the first message. [lv], [f], [t]: from LAIK_LOG (43-82, parsing not modelled) *)
Definition log_start (lv f t : Z) (inst : option Z) : lstate := mkLstate lv f t inst LL_None 0 [] 0.
