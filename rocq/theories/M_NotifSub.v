(* Model of the subscriber of a notification stream: util/notification-subscriber.{hpp,cpp}, with the part of Face that it uses: posted
   tasks (face.cpp:150-167, impl/face-impl.hpp:91-122) and the table of pending Interests.
   The clock, the payload of notifications and the number of handlers of a signal are not modelled: the environment chooses when a pending
   Interest is answered or times out and when the timer fires, whether a payload decodes, and whether a signal has handlers.
   Shutting down the face, which Face::processEvents does when a handler throws, is not modelled. *)
From Coq Require Import ZArith.
From Verif Require Import Base M_Tlv M_Name.

(* notification-subscriber.cpp:66-91: the initial Interest has the prefix as name, CanBePrefix and MustBeFresh; the others ask for a number *)
Inductive skind := SInitial | SNext (n : N).
(* functions posted to the io_context by expressInterest (face.cpp:160-164) and CancelHandle::cancel (face.cpp:345-352, face-impl.hpp:114-122) *)
Inductive stask := TExpress (id : nat) (k : skind) | TCancel (id : nat).
(* impl/pending-interest.hpp: a pending Interest; pe_timed: its timeout is still scheduled *)
Record pent := mkPent { pe_id : nat; pe_kind : skind; pe_timed : bool }.
(* su_alive: the object exists; su_running: m_isRunning; su_last: m_lastSequenceNum; su_lastNack: m_lastNackSequenceNum; su_attempts: m_attempts;
   su_handle: m_lastInterest; su_timer: m_nackEvent is scheduled; su_onNotif, su_onNack: the signal has a handler;
   su_queue: posted tasks; su_table: pending Interests; su_next: the next id of a pending Interest *)
Record sub := mkSub { su_alive : bool; su_running : bool; su_last : N; su_lastNack : N; su_attempts : N; su_handle : option nat; su_timer : bool;
  su_onNotif : bool; su_onNack : bool; su_queue : list stask; su_table : list pent; su_next : nat }.
(* notification-subscriber.hpp:131-140 *)
Definition su_new : sub := mkSub true false (two64 - 1) (two64 - 1) 1 None false false false [] [] 0.

Definition setRunning (b : bool) (s : sub) : sub := mkSub (su_alive s) b (su_last s) (su_lastNack s) (su_attempts s) (su_handle s) (su_timer s) (su_onNotif s) (su_onNack s) (su_queue s) (su_table s) (su_next s).
Definition setLast (n : N) (s : sub) : sub := mkSub (su_alive s) (su_running s) n (su_lastNack s) (su_attempts s) (su_handle s) (su_timer s) (su_onNotif s) (su_onNack s) (su_queue s) (su_table s) (su_next s).
Definition setNacks (n a : N) (s : sub) : sub := mkSub (su_alive s) (su_running s) (su_last s) n a (su_handle s) (su_timer s) (su_onNotif s) (su_onNack s) (su_queue s) (su_table s) (su_next s).
Definition setTimer (b : bool) (s : sub) : sub := mkSub (su_alive s) (su_running s) (su_last s) (su_lastNack s) (su_attempts s) (su_handle s) b (su_onNotif s) (su_onNack s) (su_queue s) (su_table s) (su_next s).
Definition setHandlers (n k : bool) (s : sub) : sub := mkSub (su_alive s) (su_running s) (su_last s) (su_lastNack s) (su_attempts s) (su_handle s) (su_timer s) n k (su_queue s) (su_table s) (su_next s).
Definition setFace (q : list stask) (t : list pent) (s : sub) : sub := mkSub (su_alive s) (su_running s) (su_last s) (su_lastNack s) (su_attempts s) (su_handle s) (su_timer s) (su_onNotif s) (su_onNack s) q t (su_next s).

(* what can be observed: Interests expressed; onNotification, onDecodeError, onTimeout and onNack called; OWait: a retry is scheduled, after a Nack for number n;
   OUb: undefined behaviour *)
Inductive sout := OSend (id : nat) (k : skind) | ODeliver (id : nat) (n : N) | OBad (id : nat) | OLate (id : nat) | ONack (id : nat) (n : N)
  | OWait (n delay : N) | OUb.

(* ScopedCancelHandle::cancel, CancelHandle::cancel (detail/cancel-handle.cpp:26-33) *)
Definition cancel_task (h : option nat) : list stask := match h with Some i => [TCancel i] | None => [] end.
(* notification-subscriber.cpp:56-64 stop *)
Definition su_stop (s : sub) : sub :=
  if su_running s
  then mkSub (su_alive s) false (su_last s) (su_lastNack s) (su_attempts s) None (su_timer s) (su_onNotif s) (su_onNack s) (su_queue s ++ cancel_task (su_handle s)) (su_table s) (su_next s)
  else s.
(* notification-subscriber.cpp:102-113 shouldStop *)
Definition shouldStop (s : sub) : sub * bool :=
  if negb (su_running s) then (s, true)
  else if negb (su_onNotif s) && negb (su_onNack s) then (su_stop s, true)
  else (s, false).
(* notification-subscriber.cpp:93-100 sendInterest: expressInterest, then the assignment cancels the previous Interest *)
Definition su_send (k : skind) (s : sub) : sub * list sout :=
  (mkSub (su_alive s) (su_running s) (su_last s) (su_lastNack s) (su_attempts s) (Some (su_next s)) (su_timer s) (su_onNotif s) (su_onNack s)
     (su_queue s ++ TExpress (su_next s) k :: cancel_task (su_handle s)) (su_table s) (S (su_next s)), [OSend (su_next s) k]).
(* notification-subscriber.cpp:66-77 sendInitialInterest, 79-91 sendNextInterest; the number is a uint64_t *)
Definition sendInitial (s : sub) : sub * list sout := let (s1, b) := shouldStop s in if b then (s1, []) else su_send SInitial s1.
Definition sendNext (s : sub) : sub * list sout := let (s1, b) := shouldStop s in if b then (s1, []) else su_send (SNext ((su_last s1 + 1) mod two64)) s1.
(* notification-subscriber.cpp:46-54 start *)
Definition su_start (s : sub) : sub * list sout := if su_running s then (s, []) else sendInitial (setRunning true s).

(* what a handler, or the application, does: start(), stop(), add or remove handlers of onNotification and onNack *)
Inductive sact := ActStart | ActStop | ActHandlers (notif nack : bool).
Definition su_act (a : sact) (s : sub) : sub * list sout :=
  match a with
  | ActStart => su_start s
  | ActStop => (su_stop s, [])
  | ActHandlers n k => (setHandlers n k s, [])
  end.
Fixpoint su_acts (l : list sact) (s : sub) : sub * list sout :=
  match l with
  | [] => (s, [])
  | a :: l' => let (s1, o1) := su_act a s in let (s2, o2) := su_acts l' s1 in (s2, o1 ++ o2)
  end.
(* a signal is emitted: what its handlers do, then whether one throws, in which case the rest is skipped *)
Definition su_emit (o : sout) (acts : list sact) (throws : bool) (k : sub -> sub * list sout) (s : sub) : sub * list sout * bool :=
  let (s1, o1) := su_acts acts s in
  if throws then (s1, o :: o1, true) else let (s2, o2) := k s1 in (s2, o :: o1 ++ o2, false).

Section Sub.
Variable conv dconv : convention.      (* the conventions for encoding and decoding *)
Variable prefix : name.

(* the number at the end of a name *)
Definition seq_of (n : name) : res N := let! c := nm_get (-1) n in toKind dconv KSequenceNumber c.
Definition int_name (k : skind) : res name :=
  match k with SInitial => Ok prefix | SNext n => let! c := fromKind conv KSequenceNumber n in Ok (nm_append c prefix) end.
(* Interest::matchesData (interest.cpp:318-341) for these Interests; a prefix that ends with a digest is not modelled *)
Definition matches (k : skind) (d : name) : bool :=
  match int_name k with
  | Ok n => match k with SInitial => nm_isPrefixOf n d | SNext _ => nm_equals n d end
  | Err _ => false
  end.

(* notification-subscriber.cpp:115-137 afterReceiveData, notification-subscriber.hpp:179-191 decodeAndDeliver; ok: the payload decodes *)
Definition afterReceiveData (id : nat) (d : name) (ok : bool) (acts : list sact) (throws : bool) (s : sub) : sub * list sout * bool :=
  let (s1, b) := shouldStop s in
  if b then (s1, [], false)
  else
    match seq_of d with
    | Ok n => if ok then su_emit (ODeliver id n) acts throws sendNext (setLast n s1) else su_emit (OBad id) acts throws sendInitial (setLast n s1)
    | Err ETlv => su_emit (OBad id) acts throws sendInitial s1
    | Err _ => (s1, [OUb], false)
    end.
(* notification-subscriber.cpp:161-183 exponentialBackoff: pow(2, m_attempts) * 100 + random % 100, a double, converted to int64_t, which is
   undefined if it does not fit.  The rounding of the sum, above 2^53 ms, is not modelled.  m_attempts cannot wrap before that. *)
Definition backoff (attempts random : N) : res N :=
  let d := 2 ^ attempts * 100 + random mod 100 in if d <? 2 ^ 63 then Ok d else Err EUb.
(* notification-subscriber.cpp:139-149 afterReceiveNack; the Nack carries the Interest.  With an empty name the code reads out of bounds, after onNack *)
Definition afterReceiveNack (id : nat) (k : skind) (random : N) (acts : list sact) (throws : bool) (s : sub) : sub * list sout * bool :=
  let (s1, b) := shouldStop s in
  if b then (s1, [], false)
  else
    match (let! n := int_name k in match seq_of n with Err ETlv => Ok 0 | r => r end) with
    | Ok n =>
        su_emit (ONack id n) acts throws (fun s2 =>
          let a := if su_lastNack s2 =? n then su_attempts s2 + 1 else 1 in
          let s3 := setNacks n a s2 in
          match backoff a random with Ok d => (setTimer true s3, [OWait n d]) | Err _ => (s3, [OUb]) end) s1
    | Err _ => (s1, [OUb], false)
    end.
(* notification-subscriber.cpp:151-159 afterTimeout *)
Definition afterTimeout (id : nat) (acts : list sact) (throws : bool) (s : sub) : sub * list sout * bool :=
  let (s1, b) := shouldStop s in if b then (s1, [], false) else su_emit (OLate id) acts throws sendInitial s1.

Definition lookup (id : nat) (t : list pent) : option pent := find (fun x => Nat.eqb (pe_id x) id) t.
Definition remove_id (id : nat) (t : list pent) : list pent := filter (fun x => negb (Nat.eqb (pe_id x) id)) t.
Definition untime (id : nat) (t : list pent) : list pent := map (fun x => if Nat.eqb (pe_id x) id then mkPent (pe_id x) (pe_kind x) false else x) t.

Inductive sev :=
  | EvAct (a : sact)                                                        (* the application calls a function *)
  | EvDestroy
  | EvTask                                                                  (* the next posted function runs *)
  | EvData (id : nat) (d : name) (ok : bool) (acts : list sact) (throws : bool)      (* Data arrives that satisfies the pending Interest id *)
  | EvNack (id : nat) (random : N) (acts : list sact) (throws : bool)
  | EvTimeout (id : nat) (acts : list sact) (throws : bool)
  | EvTimer.
(* an answer to a pending Interest: face-impl.hpp:133-156, 160-190, record-container.hpp:144-160, pending-interest.hpp:134-152, 162-173.
   The entry is erased when the callback returns, so it stays if the callback throws; after a timeout it then has no timeout any more.
   The number of Nacks of an entry is not modelled.  The callback uses the object, which may be gone. *)
Definition su_answer (id : nat) (s : sub) (fits : pent -> bool) (kept : list pent -> list pent) (f : skind -> sub -> sub * list sout * bool) : sub * list sout :=
  match lookup id (su_table s) with
  | Some x =>
      if fits x
      then if su_alive s
           then let '(s1, o, threw) := f (pe_kind x) s in (setFace (su_queue s1) (if threw : bool then kept (su_table s1) else remove_id id (su_table s1)) s1, o)
           else (s, [OUb])
      else (s, [])
  | None => (s, [])
  end.
(* events that cannot occur have no effect *)
Definition su_step (e : sev) (s : sub) : sub * list sout :=
  match e with
  | EvAct a => if su_alive s then su_act a s else (s, [])
  | EvDestroy =>
      if su_alive s
      then (mkSub false (su_running s) (su_last s) (su_lastNack s) (su_attempts s) None false (su_onNotif s) (su_onNack s) (su_queue s ++ cancel_task (su_handle s)) (su_table s) (su_next s), [])
      else (s, [])
  | EvTask =>
      match su_queue s with
      | [] => (s, [])
      | TExpress i k :: q => (setFace q (su_table s ++ [mkPent i k true]) s, [])
      | TCancel i :: q => (setFace q (remove_id i (su_table s)) s, [])
      end
  | EvData id d ok acts throws => su_answer id s (fun x => matches (pe_kind x) d) (fun t => t) (fun _ => afterReceiveData id d ok acts throws)
  | EvNack id random acts throws => su_answer id s (fun _ => true) (fun t => t) (fun k => afterReceiveNack id k random acts throws)
  | EvTimeout id acts throws => su_answer id s pe_timed (untime id) (fun _ => afterTimeout id acts throws)
  | EvTimer => if su_timer s then sendInitial (setTimer false s) else (s, [])
  end.
Fixpoint su_run (l : list sev) (s : sub) : sub * list sout :=
  match l with
  | [] => (s, [])
  | e :: l' => let (s1, o1) := su_step e s in let (s2, o2) := su_run l' s1 in (s2, o1 ++ o2)
  end.
End Sub.
