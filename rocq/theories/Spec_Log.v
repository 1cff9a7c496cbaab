(* What a user expects of log messages, without the buffers and offsets of the code *)
From Coq Require Import ZArith List Bool.
From Verif Require Import Base Model_Log.
Import ListNotations.
Open Scope Z_scope.

(* One printed line: a continuation or not, the indentation of the paragraph, the text, and
   what followed the text in the message *)
Record piece := mkPiece { pc_cont : bool; pc_ind : nat; pc_text : list Z; pc_end : list Z }.

(* the part of the message a line stands for *)
Definition source (p : piece) : list Z :=
  (if pc_cont p then [] else repeat 32 (pc_ind p)) ++ pc_text p ++ pc_end p.

(* the line as printed: prefix, indentation (4 more in a continuation), text, newline *)
Definition printed (pre : list Z) (p : piece) : list Z :=
  pre ++ repeat 32 (if pc_cont p then pc_ind p + 4 else pc_ind p)%nat ++ pc_text p ++ [10].

Definition NoBlank (w : list Z) : Prop := ~ In 32 w /\ ~ In 10 w.

(* Lines of a paragraph follow each other. [c]: indentation of the line before if this one
   continues it. No line is empty unless the message has an empty one. A line ends with the message, at a newline, or at a space if otherwise the
   line would exceed 100 columns; only its last word may pass column 100. *)
Fixpoint Laid (c : option nat) (ps : list piece) : Prop :=
  match ps with
  | [] => True
  | p :: r =>
      match c with
      | None => pc_cont p = false /\ (forall x t, pc_text p ++ pc_end p = x :: t -> x <> 32)
      | Some n => pc_cont p = true /\ pc_ind p = n
      end /\
      source p <> [] /\ ~ In 10 (pc_text p) /\
      (forall a b, pc_text p = a ++ 32 :: b -> (pc_ind p + length a <= 100)%nat) /\
      ((pc_end p = [] /\ r = []) \/
       (pc_end p = [10] /\ Laid None r) \/
       (pc_end p = [32] /\ Laid (Some (pc_ind p)) r /\
        (((pc_ind p + length (pc_text p) > 100)%nat /\ ~ In 32 (pc_text p)) \/
         (pc_ind p + length (pc_text p) <= 100)%nat /\
         exists w y, concat (map source r) = w ++ 32 :: y /\ NoBlank w /\
           (pc_ind p + length (pc_text p) + 1 + length w > 100)%nat)))
  end.

(* [ls] is message [m] completely: every character once and in order *)
Definition Shows (pre : Z -> list Z) (m : list Z) (ls : list (list Z)) : Prop :=
  exists ps, concat (map source ps) = m /\ Laid None ps /\
    length ls = length ps /\
    forall i p, nth_error ps i = Some p -> nth_error ls i = Some (printed (pre (Z.of_nat i + 1)) p).

(* messages which fit into the line buffer: words up to 90 characters, indentation up to 100 *)
Definition Words (m : list Z) : Prop := forall a w b, m = a ++ w ++ b -> NoBlank w -> (length w <= 90)%nat.
Definition Indents (m : list Z) : Prop :=
  forall a n b, m = a ++ repeat 32 n ++ b -> (a = [] \/ exists a', a = a' ++ [10]) -> (n <= 100)%nat.
Definition Fits (m : list Z) : Prop := Words m /\ Indents m.

(* The calls, as a user sees them. [v]: minimal level; [here]: whether this process may
   log; [c]: level and text of the message being built *)
Record user := mkUser { u_min : Z; u_here : bool; u_cur : option (Z * list Z) }.

Definition u_begin (u : user) (l : Z) : user :=
  mkUser (u_min u) (u_here u) (if (u_min u <=? l) && u_here u && negb (l =? 0) then Some (l, []) else None).
Definition u_add (u : user) (m : list Z) : user :=
  mkUser (u_min u) (u_here u) (match u_cur u with Some (l, t) => Some (l, t ++ m) | None => None end).
(* the message printed by a flush, if any *)
Definition u_msg (u : user) : option (Z * list Z) :=
  match u_cur u with Some (l, x :: t) => Some (l, x :: t) | _ => None end.
Definition u_done (u : user) : user :=
  mkUser (u_min u) (u_here u) (match u_cur u with Some (l, _) => Some (l, []) | None => None end).

Definition u_step (u : user) (c : lcall) : option (Z * list Z) * user :=
  match c with
  | LBegin l => (None, u_begin u l)
  | LAppend m => (None, u_add u m)
  | LFlush None => (u_msg u, u_done u)
  | LFlush (Some m) => (u_msg (u_add u m), u_done (u_add u m))
  | LLog l m => let v := u_add (u_begin u l) m in (u_msg v, u_done v)
  | LPanic m => let v := u_add (u_begin u 5) m in (u_msg v, u_done v)
  | LSet l => (None, mkUser l (u_here u) (u_cur u))
  end.

(* messages shown by a sequence of calls, which ends early with a shown panic *)
Fixpoint u_life (u : user) (cs : list lcall) : list (Z * list Z) :=
  match cs with
  | [] => []
  | c :: r =>
      let '(o, u') := u_step u c in
      match o with
      | Some (l, m) => (l, m) :: (if l =? 5 then [] else u_life u' r)
      | None => u_life u' r
      end
  end.

(* a piece of a message is shorter than 1024 characters; a message given to laik_log or
   laik_panic as a whole may have any length *)
Definition SmallCall (c : lcall) : Prop :=
  match c with LAppend m | LFlush (Some m) => (length m < 1024)%nat | _ => True end.

(* may this process log with filter [f],[t] of LAIK_LOG? *)
Definition here (f t : Z) (inst : option Z) : bool :=
  match inst with Some me => (f <? 0) || ((f <=? me) && (me <=? t)) | None => true end.

(* the printed lines are those of the messages, one message after the other *)
Definition Output (pf : Z -> Z -> list Z) (ms : list (Z * list Z)) (out : list (list Z)) : Prop :=
  exists oss, out = concat oss /\ length oss = length ms /\
    forall i l m, nth_error ms i = Some (l, m) ->
      exists ls, nth_error oss i = Some ls /\ Shows (log_prefix (pf (Z.of_nat i)) l) m ls.
