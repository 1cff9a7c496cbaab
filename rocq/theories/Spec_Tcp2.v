(* Specification vocabulary for the byte streams of the TCP2 backend *)
From Coq Require Import ZArith List Bool Lia.
From Verif Require Import Base Model_Space Model_RangeList Model_Mem Model_Layout Model_Transition Model_Tcp2.
Import ListNotations.
Open Scope Z_scope.

(* what is sent over a connection: commands (one line each), and frames of elements of [es] bytes *)
Inductive item := ICmd (c : list Z) | IFrame (es : Z) (els : list (list Z)).
Definition item_bytes (i : item) : list Z :=
  match i with
  | ICmd c => c ++ [10]
  | IFrame es els => let n := es * zlen els in [66; n mod 256; n / 256] ++ concat els
  end.
Definition stream (l : list item) : list Z := flat_map item_bytes l.

(* Commands fit into the receive buffer, have no control characters and do not start with 'B';
   elements fit into the receive buffer, frames have less than 2^16 bytes *)
Definition ItemOk (i : item) : Prop :=
  match i with
  | ICmd c => zlen c < 8192 /\ hd 0 c <> 66 /\ Forall (fun x => x <> 4 /\ x <> 10 /\ x <> 13) c
  | IFrame es els => 0 < es <= 8192 /\ Forall (fun e => zlen e = es) els /\ es * zlen els < 65536
  end.

(* what there is to do for an item, with the number of bytes: a command, the start of a frame with
   [n] elements, an element, [more]: others follow in the frame *)
Inductive event := ECmd (c : list Z) | EHead (es : Z) (n : nat) | EElem (e : list Z) (more : bool).
Fixpoint elem_events (els : list (list Z)) : list (event * Z) :=
  match els with
  | [] => []
  | e :: r => (EElem e (match r with [] => false | _ => true end), zlen e) :: elem_events r
  end.
Definition item_events (i : item) : list (event * Z) :=
  match i with
  | ICmd c => [(ECmd c, zlen c + 1)]
  | IFrame es els => (EHead es (length els), 3) :: elem_events els
  end.
Definition events (l : list item) : list (event * Z) := flat_map item_events l.

(* the first events, of which all bytes are among the first [n] bytes *)
Fixpoint complete (n : Z) (l : list (event * Z)) : list event :=
  match l with
  | [] => []
  | (e, k) :: r => if k <=? n then e :: complete (n - k) r else []
  end.

Section Apply.
Variable rd : redop -> list Z -> list Z -> outcome (list Z).
Variable X : Type.
Variable other : X -> list Z -> outcome X.

(* a receive from the peer is waiting for elements of size [es] *)
Definition readyb (es : Z) (s : pstate X) : bool :=
  let p := snd (fst s) in negb (pr_count p =? 0) && (pr_off p <? pr_count p) && (pr_es p =? es) && match pr_map p with None => false | Some _ => true end.

(* Handling of one event. Frames may only arrive when elements of their size are waited for, and
   with no more elements than that. *)
Definition apply_event (s : pstate X) (e : event) : outcome (pstate X) :=
  match e with
  | ECmd c => got_cmd rd X other s c
  | EHead es n => if Nat.eqb n 0 || readyb es s then Ok s else Abort
  | EElem e more =>
    if readyb (zlen e) s then
      let '(x, p, m) := s in
      do q <- put_elem rd p m e;
      let s' := (x, fst (fst q), snd (fst q)) in
      if Bool.eqb (snd q) (pr_off (fst (fst q)) <? pr_count (fst (fst q))) && (negb more || readyb (zlen e) s')
      then Ok s' else Abort
    else Abort
  end.
Definition apply_events (s : pstate X) (l : list event) : outcome (pstate X) := ofold apply_event l s.

(* what the own program does in between, e.g. starting a receive: it leaves a waiting receive alone *)
Definition Calm (f : pstate X -> pstate X) : Prop := forall es s, readyb es s = true -> readyb es (f s) = true.

(* Bytes arrive in pieces: [n] bytes, then the own program does [f]. Whenever bytes arrived, the
   connection is read. [wait]: bytes which arrived, but were not read yet. *)
Fixpoint receive (s : pstate X) (f : fdst) (wait rest : list Z) (steps : list (nat * (pstate X -> pstate X))) : outcome (pstate X * fdst * list Z * list Z) :=
  match steps with
  | [] => Ok (s, f, wait, rest)
  | (n, g) :: l =>
    let wait := wait ++ firstn n rest in
    match wait with
    | [] => receive (g s) f wait (skipn n rest) l
    | _ =>
      do r <- got_bytes rd X other s f wait;
      receive (g (fst (fst r))) (snd (fst r)) (snd r) (skipn n rest) l
    end
  end.

(* [ks]: numbers of bytes read in each step. Something is read if there is something to read;
   [arr], [got]: bytes which arrived and were read before, of [total] *)
Fixpoint ReadsOk (total arr got : Z) (steps : list (nat * (pstate X -> pstate X))) (ks : list Z) : Prop :=
  match steps, ks with
  | [], [] => True
  | (n, _) :: l, k :: ks' =>
    let arr := Z.min total (arr + Z.of_nat n) in
    0 <= k /\ got + k <= arr /\ (got < arr -> 0 < k) /\ ReadsOk total arr (got + k) l ks'
  | _, _ => False
  end.

(* the events handled when [ks] is the number of bytes read in each step, [done] bytes before *)
Fixpoint handle (evs : list (event * Z)) (done : Z) (s : pstate X) (steps : list (Z * (pstate X -> pstate X))) : outcome (pstate X) :=
  match steps with
  | [] => Ok s
  | (k, g) :: l =>
    do s1 <- apply_events s (skipn (length (complete done evs)) (complete (done + k) evs));
    handle evs (done + k) (g s1) l
  end.
End Apply.

(* ---------- transfer of a range ---------- *)

(* the value [v] of an index after receiving [e], with [old] being the value before: the received
   value, or the reduction of both *)
Definition Combined (rd : redop -> list Z -> list Z -> outcome (list Z)) (ro : redop) (old e v : list Z) : Prop :=
  match ro with RO_None => v = e | o => rd o old e = Ok v end.

(* the own program leaves the byte at [a] as it is *)
Definition Keeps {X} (a : Z) (g : pstate X -> pstate X) : Prop := forall s, snd (g s) a = snd s a.
(* the own program does not touch the state of the receive *)
Definition KeepsReceive {X} (g : pstate X -> pstate X) : Prop := forall s, snd (fst (g s)) = snd (fst s).

(* bytes arriving in a number of steps *)
Definition zsum (l : list Z) : Z := fold_right Z.add 0 l.
Definition arrivals {Y} (steps : list (nat * Y)) : Z := zsum (map (fun st => Z.of_nat (fst st)) steps).
