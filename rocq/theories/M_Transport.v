(* Stream transport: transport/detail/stream-transport-impl.hpp with the wrappers of transport/unix-transport.cpp:77-122
   (transport/tcp-transport.cpp:82-127 is the same), from the call of connect() to the end of one StreamTransportImpl.
   Boost.Asio is modelled by its documented contract: an asynchronous operation completes (an environment event), its
   handler is queued and runs later (another event); cancel() and close() abort the operations that have not completed,
   whose handlers then only see operation_aborted and return; they do not affect handlers already queued.  async_write
   is a loop of partial writes.  Not modelled: name resolution (tcp only), a second connect(), and a read that
   completes at once inside a receive callback that has paused and resumed. *)
From Verif Require Import Base M_Tlv.

Definition BUFSIZE : N := 8800.                                         (* encoding/tlv.hpp:41 MAX_NDN_PACKET_SIZE *)
Inductive tstate := CLOSED | CONNECTING | RUNNING | PAUSED.             (* transport.hpp:49-54 *)
Inductive cstat := CoNone | CoWait | CoOk | CoErr.                      (* async_connect: none, running, completed *)
Inductive mstat := TmNone | TmWait | TmFired.                           (* the connect timer *)
Inductive rstat := RWait | RGot (n : N) | RBad.                         (* async_receive: running, n octets, error *)
Inductive wstat := WWait | WReady | WBad.                               (* one partial write: running, done, error *)

(* what the application calls, also from inside the receive callback; CThrow: the callback throws *)
Inductive call := CSend (w : bytes) | CPause | CResume | CClose | CThrow.
(* history of what the application and the peer see *)
Inductive tlog :=
| LSend (w : bytes) | LPause | LResume | LClose      (* calls *)
| LXmit (w : bytes)                                  (* octets accepted by the socket *)
| LRecv (w : bytes)                                  (* octets read from the socket *)
| LDeliver (e : elem)                                (* receive callback invoked *)
| LThrow.                                            (* an exception leaves io_context::run *)

(* stream-transport-impl.hpp:219-226; t_impl: the wrapper's m_impl is not null; t_rds: pending receive operations with
   the offset they write at; t_wrs: pending async_write operations with the octets not yet written *)
Record tr := mkTr {
  t_st : tstate; t_impl : bool; t_open : bool; t_conn : cstat; t_tm : mstat;
  t_q : list bytes; t_rx : bytes; t_n : N; t_rds : list (N * rstat); t_wrs : list (bytes * wstat); t_log : list tlog }.

Definition set_st v s := mkTr v (t_impl s) (t_open s) (t_conn s) (t_tm s) (t_q s) (t_rx s) (t_n s) (t_rds s) (t_wrs s) (t_log s).
Definition set_impl v s := mkTr (t_st s) v (t_open s) (t_conn s) (t_tm s) (t_q s) (t_rx s) (t_n s) (t_rds s) (t_wrs s) (t_log s).
Definition set_open v s := mkTr (t_st s) (t_impl s) v (t_conn s) (t_tm s) (t_q s) (t_rx s) (t_n s) (t_rds s) (t_wrs s) (t_log s).
Definition set_conn v s := mkTr (t_st s) (t_impl s) (t_open s) v (t_tm s) (t_q s) (t_rx s) (t_n s) (t_rds s) (t_wrs s) (t_log s).
Definition set_tm v s := mkTr (t_st s) (t_impl s) (t_open s) (t_conn s) v (t_q s) (t_rx s) (t_n s) (t_rds s) (t_wrs s) (t_log s).
Definition set_q v s := mkTr (t_st s) (t_impl s) (t_open s) (t_conn s) (t_tm s) v (t_rx s) (t_n s) (t_rds s) (t_wrs s) (t_log s).
Definition set_rx v s := mkTr (t_st s) (t_impl s) (t_open s) (t_conn s) (t_tm s) (t_q s) v (t_n s) (t_rds s) (t_wrs s) (t_log s).
Definition set_n v s := mkTr (t_st s) (t_impl s) (t_open s) (t_conn s) (t_tm s) (t_q s) (t_rx s) v (t_rds s) (t_wrs s) (t_log s).
Definition set_rds v s := mkTr (t_st s) (t_impl s) (t_open s) (t_conn s) (t_tm s) (t_q s) (t_rx s) (t_n s) v (t_wrs s) (t_log s).
Definition set_wrs v s := mkTr (t_st s) (t_impl s) (t_open s) (t_conn s) (t_tm s) (t_q s) (t_rx s) (t_n s) (t_rds s) v (t_log s).
Definition say x s := mkTr (t_st s) (t_impl s) (t_open s) (t_conn s) (t_tm s) (t_q s) (t_rx s) (t_n s) (t_rds s) (t_wrs s) (t_log s ++ [x]).

(* the state right after connect(): stream-transport-impl.hpp:58-84 with unix-transport.cpp:77-87 *)
Definition tr_init : tr :=
  mkTr CONNECTING true true CoWait TmWait [] (repeat x00 (N.to_nat 8800)) 0 [] [] [].

Definition tm_cancel (m : mstat) : mstat := match m with TmWait => TmNone | x => x end.
(* socket.cancel() *)
Definition cancelOps (s : tr) : tr :=
  set_conn (match t_conn s with CoWait => CoNone | x => x end)
    (set_rds (filter (fun r => match snd r with RWait => false | _ => true end) (t_rds s))
      (set_wrs (filter (fun w => match snd w with WWait => false | _ => true end) (t_wrs s)) s)).

(* stream-transport-impl.hpp:86-97 close *)
Definition implClose (s : tr) : tr :=
  set_q [] (set_open false (cancelOps (set_tm (tm_cancel (t_tm s)) (set_st CLOSED s)))).
(* unix-transport.cpp:97-104 close *)
Definition trClose (s : tr) : tr * option err :=
  if t_impl s then (set_impl false (say LClose (implClose s)), None) else (s, Some EAssert).
(* close() and throw Transport::Error *)
Definition failWith (s : tr) : tr * option err :=
  match trClose s with (s', Some e) => (s', Some e) | (s', None) => (s', Some ERuntime) end.

(* stream-transport-impl.hpp:181-184: initiate a receive after the octets in the buffer.  An empty buffer completes
   at once; a closed socket reports an error. *)
Definition asyncReceive (s : tr) : tr :=
  set_rds (t_rds s ++ [(t_n s, if negb (t_open s) then RBad else if t_n s =? BUFSIZE then RGot 0 else RWait)]) s.

(* stream-transport-impl.hpp:152-156 *)
Definition asyncWrite (s : tr) : tr * option err :=
  match t_q s with
  | [] => (s, Some EAssert)
  | w :: _ => (set_wrs (t_wrs s ++ [(w, if negb (t_open s) then WBad else if nlen w =? 0 then WReady else WWait)]) s, None)
  end.

(* stream-transport-impl.hpp:108-116 resume *)
Definition implResume (s : tr) : tr :=
  match t_st s with PAUSED => asyncReceive (set_n 0 (set_st RUNNING s)) | _ => s end.

(* the public functions: unix-transport.cpp:90-122, stream-transport-impl.hpp:86-129 *)
Definition do_call (s : tr) (c : call) : tr * option err :=
  match c with
  | CSend w =>
      if negb (t_impl s) then (s, Some EAssert) else
      let s1 := set_q (t_q s ++ [w]) (say (LSend w) s) in
      match t_st s with
      | CLOSED | CONNECTING => (s1, None)
      | _ => if (length (t_q s1) =? 1)%nat then asyncWrite s1 else (s1, None)
      end
  | CPause =>
      if negb (t_impl s) then (s, None) else
      match t_st s with
      | RUNNING => if t_open s then (set_st PAUSED (cancelOps (say LPause s)), None) else (s, Some ERuntime)
      | _ => (say LPause s, None)
      end
  | CResume => if t_impl s then (implResume (say LResume s), None) else (s, Some EAssert)
  | CClose => trClose s
  | CThrow => (s, Some ERuntime)
  end.

Fixpoint do_calls (s : tr) (cs : list call) : tr * option err :=
  match cs with
  | [] => (s, None)
  | c :: cs' => match do_call s c with (s', None) => do_calls s' cs' | r => r end
  end.

Section Run.
(* the receive callback: what it calls, as a function of everything that happened before *)
Variable cb : list tlog -> list call.

(* stream-transport-impl.hpp:195-203: parse and deliver.  Fuel: number of octets. *)
Fixpoint rxLoop (fuel : nat) (s : tr) (unparsed : bytes) : tr * bytes * option err :=
  match unparsed with
  | [] => (s, [], None)
  | _ =>
    match fuel with
    | O => (s, unparsed, Some EFuel)
    | S f =>
      match fromBuffer unparsed with
      | None => (s, unparsed, None)
      | Some (e, rest) =>
          match do_calls (say (LDeliver e) s) (cb (t_log s)) with
          | (s', None) => rxLoop f s' rest
          | (s', Some x) => (s', rest, Some x)
          end
      end
    end
  end.

(* stream-transport-impl.hpp:184-221, the handler of a completed receive operation *)
Definition readHandler (s : tr) (r : rstat) : tr * option err :=
  match r with
  | RWait => (s, None)
  | RBad => failWith s
  | RGot k =>
      let n := t_n s + k in
      let s1 := set_n n s in
      if BUFSIZE <? n then (s1, Some EUb) else
      match rxLoop (length (t_rx s)) s1 (ntake n (t_rx s)) with
      | (s2, _, Some e) => (s2, Some e)
      | (s2, rest, None) =>
          if nlen rest =? 0 then (asyncReceive (set_n 0 s2), None)
          else if negb (nlen rest =? n) then
            (asyncReceive (set_n (nlen rest) (set_rx (rest ++ ndrop (nlen rest) (t_rx s2)) s2)), None)
          else if nlen rest =? BUFSIZE then failWith s2
          else (asyncReceive s2, None)
      end
  end.

(* stream-transport-impl.hpp:157-176, the handler of a completed async_write *)
Definition writeHandler (s : tr) : tr * option err :=
  match t_st s with
  | CLOSED => (s, None)
  | _ =>
    match t_q s with
    | [] => (s, Some EAssert)
    | _ :: q' => let s1 := set_q q' s in match q' with [] => (s1, None) | _ => asyncWrite s1 end
    end
  end.

(* stream-transport-impl.hpp:131-150 connectHandler *)
Definition connectHandler (s : tr) (ok : bool) : tr * option err :=
  let s0 := set_tm (tm_cancel (t_tm s)) s in
  if negb ok then failWith s0 else
  let s1 := set_st PAUSED s0 in
  match t_q s1 with [] => (s1, None) | _ => asyncWrite (implResume s1) end.

(* what can happen; events that are not possible in the current state have no effect *)
Inductive tev :=
| EvCall (c : call)                        (* the application, outside of callbacks *)
| EvConn (ok : bool) | EvConnH             (* the connection attempt ends; its handler runs *)
| EvTimer | EvTimerH                       (* the connect timer expires; its handler runs *)
| EvRecv (k : nat) (w : bytes) | EvRecvErr (k : nat) | EvReadH (k : nat)
| EvXmit (k : nat) (n : N) | EvXmitErr (k : nat) | EvWriteH (k : nat).

Definition remove_nth {A} (k : nat) (l : list A) : list A := firstn k l ++ skipn (S k) l.
Definition replace_nth {A} (k : nat) (x : A) (l : list A) : list A := firstn k l ++ x :: skipn (S k) l.

Definition tstep (s : tr) (e : tev) : tr * option err :=
  match e with
  | EvCall c => do_call s c
  | EvConn ok => match t_conn s with CoWait => (set_conn (if ok then CoOk else CoErr) s, None) | _ => (s, None) end
  | EvConnH =>
      match t_conn s with
      | CoOk => connectHandler (set_conn CoNone s) true
      | CoErr => connectHandler (set_conn CoNone s) false
      | _ => (s, None)
      end
  | EvTimer => match t_tm s with TmWait => (set_tm TmFired s, None) | _ => (s, None) end
  | EvTimerH => match t_tm s with TmFired => failWith (set_tm TmNone s) | _ => (s, None) end (* 69-76 *)
  | EvRecv k w =>
      match nth_error (t_rds s) k with
      | Some (off, RWait) =>
          if (0 <? nlen w) && (off + nlen w <=? BUFSIZE) then
            (say (LRecv w) (set_rx (ntake off (t_rx s) ++ w ++ ndrop (off + nlen w) (t_rx s))
               (set_rds (replace_nth k (off, RGot (nlen w)) (t_rds s)) s)), None)
          else (s, None)
      | _ => (s, None)
      end
  | EvRecvErr k =>
      match nth_error (t_rds s) k with
      | Some (off, RWait) => (set_rds (replace_nth k (off, RBad) (t_rds s)) s, None)
      | _ => (s, None)
      end
  | EvReadH k =>
      match nth_error (t_rds s) k with
      | Some (_, RWait) | None => (s, None)
      | Some (_, r) => readHandler (set_rds (remove_nth k (t_rds s)) s) r
      end
  | EvXmit k n =>
      match nth_error (t_wrs s) k with
      | Some (w, WWait) =>
          if (0 <? n) && (n <=? nlen w) then
            (say (LXmit (ntake n w)) (set_wrs (replace_nth k (ndrop n w, WReady) (t_wrs s)) s), None)
          else (s, None)
      | _ => (s, None)
      end
  | EvXmitErr k =>
      match nth_error (t_wrs s) k with
      | Some (w, WWait) => (set_wrs (replace_nth k (w, WBad) (t_wrs s)) s, None)
      | _ => (s, None)
      end
  | EvWriteH k =>
      match nth_error (t_wrs s) k with
      | Some ([], WReady) => writeHandler (set_wrs (remove_nth k (t_wrs s)) s)
      | Some (w, WReady) => (set_wrs (replace_nth k (w, if t_open s then WWait else WBad) (t_wrs s)) s, None)
      | Some (_, WBad) => failWith (set_wrs (remove_nth k (t_wrs s)) s)
      | _ => (s, None)
      end
  end.

(* an exception leaves io_context::run, which the application may call again *)
Fixpoint trun (s : tr) (evs : list tev) : tr * option err :=
  match evs with
  | [] => (s, None)
  | e :: evs' =>
      match tstep s e with
      | (s', None) => trun s' evs'
      | (s', Some x) => if catchable x then trun (say LThrow s') evs' else (s', Some x)
      end
  end.
End Run.
