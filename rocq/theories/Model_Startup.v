(* Model of the startup of the TCP2 backend (src/backend-tcp2.c): the first processes register with
   the master. The handlers of commands in the other processes, and the initialisation of these, are
   those of Model_Resize.v (with the same simplifications). *)
From Coq Require Import ZArith List Bool Lia.
From Verif Require Import Base Model_Space Model_RangeList Model_Partitioner Model_Resize.
Import ListNotations.
Open Scope Z_scope.

(* mystate of the master: PS_InStartup, PS_InStartup2, PS_Ready. (d_st and the state of peer 0, which is
   the same at start, are not used before they are set at the end of startup.) *)
Inductive mst := StReg | StOk | StReady.
(* where the master is: in the first or second wait, or startup is done *)
Inductive tpc := TReg | TOk | TDone.
Record tsys := mkT { t_s : sys; t_st : mst; t_pc : tpc }.

(* backend-tcp2.c:1687-1733 new_inst_data, 1957-1972 and 1748-1752: the master before it waits *)
Definition start_master : master :=
  mkMaster (mkNode 0 PsUnknown (fun l => if l =? 0 then PsUnknown else PsInvalid) (fun l => l =? 0) 0 0 0 0 None)
    0 0 (fun _ => PsUnknown) (fun _ => -1) (fun _ => -1) [].
Definition tstart : tsys := mkT (mkSys start_master MApp (fun _ => None) (fun _ => []) (fun _ => [])) StReg TReg.

(* commands to the master during startup; [n]: init_wsize *)
Definition t_cmd (n : Z) (st : mst) (m : master) (fd : Z) (c : msg) : outcome (master * mst * list (Z * msg)) :=
  match c with
  | MRegister =>
    (* backend-tcp2.c:839-852 and 880-916 got_register *)
    if 0 <=? m_fdlid m fd then Ok (m, st, [])
    else match st with
         | StReg => do r <- accept_fd m fd;
                    Ok (fst r, (if d_peers (m_d (fst r)) + 1 =? n then StOk else StReg), snd r)
         | _ => match m_fdst m fd with
                | PsRegReceived | PsRegReceived2 => Abort
                | _ => Ok (m_setfdst m (setz (m_fdst m) fd PsRegReceived), st, [])
                end
         end
  | MOk =>
    (* backend-tcp2.c:1440-1452 got_ok *)
    if m_fdlid m fd <? 0 then Ok (m, st, [])
    else match d_peer (m_d m) (m_fdlid m fd) with
         | PsRegFinishing =>
           let m' := got_ok m (m_fdlid m fd) in
           Ok (m', (match st with StOk => if m_ready m' + 1 =? n then StReady else StOk | _ => st end), [])
         | _ => Ok (m, st, [])
         end
  | _ => Abort (* not sent during startup *)
  end.

(* backend-tcp2.c:1777-1781: states after sending getready *)
Definition fin_step (d : node) (l : Z) : outcome node :=
  match d_peer d l with
  | PsRegAccepted => Ok (set_peer d l PsRegFinishing)
  | _ => Abort
  end.
(* backend-tcp2.c:1762-1782: after the first wait. (Per connection, the order of commands is this one.) *)
Definition t_mid (n : Z) (st : mst) (m : master) : outcome (master * list (Z * msg)) :=
  let d := m_d m in
  cassert (d_peers d + 1 =? n) (
  cassert (match st with StOk => true | _ => false end) (
  let lids := zcount (d_maxid d + 1) in
  let tos := filter (fun l => 1 <=? l) lids in
  let out := flat_map (fun to => map (fun c => (m_pfd m to, c)) (map MNewId (filter (fun l => negb (l =? to)) lids) ++ [MGetready])) tos in
  do d' <- ofold fin_step tos d;
  Ok (m_setd m d', out))).

(* backend-tcp2.c:1980-1985, 1994-2073 with no old processes, and core.c:198-248: the master gets ready *)
Definition t_final (junk : Z -> Z) (n : Z) (m : master) : outcome master :=
  let d := m_d m in
  cassert (n =? d_maxid d + 1) (
  Ok (m_setd m (mkNode (d_lid d) PsReady (fun l => if (0 <=? l) && (l <? n) then PsReady else d_peer d l) (d_loc d)
        (d_maxid d) (d_peers d) (d_phase d) (d_epoch d)
        (Some (mkInst (d_epoch d) (d_phase d) (d_maxid d + 1) (first_world junk n (d_lid d))))))).
(* backend-tcp2.c:1783-1795: after the second wait *)
Definition t_end (junk : Z -> Z) (n : Z) (m : master) : outcome (master * list (Z * msg)) :=
  let d := m_d m in
  cassert (m_ready m + 1 =? n) (
  let tos := filter (fun l => 1 <=? l) (zcount (d_maxid d + 1)) in
  cassert (forallb (fun l => is_ready (d_peer d l)) tos) (
  do m' <- t_final junk n m;
  Ok (m', map (fun l => (m_pfd m l, MPhase 0 0)) tos))).

Inductive tevent :=
| TJoin (q : Z)   (* a process starts, connects, and sends a register command *)
| TDown (q : Z)   (* process q handles the next command from the master *)
| TUp (q : Z)     (* the master handles the next command from process q *)
| TGo.            (* the master goes on *)

Definition t_lift (t : tsys) (r : option (outcome sys)) : option (outcome tsys) :=
  option_map (fun o => do s <- o; Ok (mkT s (t_st t) (t_pc t))) r.

(* one step until the master is done, with LAIK_SIZE [n]. A master alone does not wait. *)
Definition texec (junk : Z -> Z) (n : Z) (t : tsys) (ev : tevent) : option (outcome tsys) :=
  let s := t_s t in
  match t_pc t with
  | TDone => None
  | pc =>
    match ev with
    | TJoin q => t_lift t (exec (fun p => p) junk s (EvJoin q))
    | TDown q => t_lift t (exec (fun p => p) junk s (EvDown q))
    | TUp q =>
      if n =? 1 then None
      else match s_up s q with
           | c :: rest =>
             Some (do r <- t_cmd n (t_st t) (s_m s) q c;
                   let '(m', st', out) := r in
                   Ok (mkT (with_m (mkSys (s_m s) MApp (s_n s) (s_down s) (setz (s_up s) q rest)) m' MApp out) st' pc))
           | [] => None
           end
    | TGo =>
      match pc with
      | TReg => if n =? 1 then Some (do m' <- t_final junk n (s_m s); Ok (mkT (with_m s m' MApp []) (t_st t) TDone))
                else match t_st t with
                     | StReg => None
                     | _ => Some (do r <- t_mid n (t_st t) (s_m s); Ok (mkT (with_m s (fst r) MApp (snd r)) (t_st t) TOk))
                     end
      | _ => match t_st t with
             | StOk => None
             | _ => Some (do r <- t_end junk n (s_m s); Ok (mkT (with_m s (fst r) MApp (snd r)) (t_st t) TDone))
             end
      end
    end
  end.
