(* util/scheduler.{hpp,cpp}: Scheduler and EventId; the asio timer and the io_context around it. *)
From Verif Require Import Base.
From Coq Require Import ZArith.
Open Scope Z_scope.

(* scheduler.cpp:31-43 EventInfo; an event is identified by the number of events scheduled before it.
   The callback is not stored: what it does are the actions between SRun and SReturn or SThrow. *)
Record sev := mkEv { ev_id : nat; ev_exp : Z }.

(* scheduler.hpp:189-193, and the boost::asio timer: sc_wait is the expiry of the asynchronous wait in
   progress (there is at most one: expires_at cancels the others), sc_ready the number of wait handlers
   that have completed without error and are queued in the io_context.  Handlers of cancelled waits do
   nothing (scheduler.cpp:129-131) and are left out.
   sc_now: the steady clock (integers; it never overflows here except in schedule, see below);
   sc_loop: the `now' of the executeEvent in progress, with whether a callback is running. *)
Record sched := mkSched {
  sc_now : Z; sc_next : nat; sc_queue : list sev;
  sc_wait : option Z; sc_ready : nat; sc_exec : bool; sc_loop : option (Z * bool) }.
Definition sc_init (now : Z) : sched := mkSched now 0 [] None 0 false None.

Definition sc_setQ q s := mkSched (sc_now s) (sc_next s) q (sc_wait s) (sc_ready s) (sc_exec s) (sc_loop s).
Definition sc_setW w s := mkSched (sc_now s) (sc_next s) (sc_queue s) w (sc_ready s) (sc_exec s) (sc_loop s).

(* std::multiset::insert with EventQueueCompare (scheduler.cpp:63-68): after the elements not greater *)
Fixpoint ev_insert (e : sev) (q : list sev) : list sev :=
  match q with
  | [] => [e]
  | x :: q' => if ev_exp e <? ev_exp x then e :: q else x :: ev_insert e q'
  end.
Definition ev_erase (i : nat) (q : list sev) : list sev := filter (fun e => negb (Nat.eqb (ev_id e) i)) q.
Definition ev_mem (i : nat) (q : list sev) : bool := existsb (fun e => Nat.eqb (ev_id e) i) q.

(* scheduler.cpp:117-124 scheduleNext *)
Definition sc_scheduleNext (s : sched) : sched :=
  match sc_queue s with
  | [] => s
  | e :: _ => sc_setW (Some (ev_exp e)) s
  end.

Definition MAX_NS : Z := 2 ^ 63 - 1.
(* scheduler.cpp:77-91 schedule; now + after beyond the range of time_point is undefined *)
Definition sc_schedule (after : Z) (s : sched) : res sched :=
  let expiry := sc_now s + after in
  if (MAX_NS <? expiry) || (expiry <? - 2 ^ 63) then Err EUb else
  let e := mkEv (sc_next s) expiry in
  let q := ev_insert e (sc_queue s) in
  let s1 := mkSched (sc_now s) (S (sc_next s)) q (sc_wait s) (sc_ready s) (sc_exec s) (sc_loop s) in
  let isFirst := match q with x :: _ => Nat.eqb (ev_id x) (sc_next s) | [] => false end in
  Ok (if negb (sc_exec s) && isFirst then sc_scheduleNext s1 else s1).
(* scheduler.cpp:93-108 cancelImpl: an event is either in the queue, or expired or gone *)
Definition sc_cancel (i : nat) (s : sched) : sched :=
  if negb (ev_mem i (sc_queue s)) then s else
  let isFirst := match sc_queue s with x :: _ => Nat.eqb (ev_id x) i | [] => false end in
  let s1 := if isFirst then sc_setW None s else s in
  let s2 := sc_setQ (ev_erase i (sc_queue s)) s1 in
  if negb (sc_exec s) then sc_scheduleNext s2 else s2.
(* scheduler.cpp:110-115 *)
Definition sc_cancelAll (s : sched) : sched := sc_setW None (sc_setQ [] s).
(* scheduler.cpp:133-136 the scope guard *)
Definition sc_leave (s : sched) : sched :=
  sc_scheduleNext (mkSched (sc_now s) (sc_next s) (sc_queue s) (sc_wait s) (sc_ready s) false None).
(* EventId::operator bool, scheduler.cpp:51-56 *)
Definition sc_valid (i : nat) (s : sched) : bool := ev_mem i (sc_queue s).

(* The actions of a run.  SSchedule, SCancel and SCancelAll are calls of the application, from inside or
   outside callbacks.  STime: the clock advances.  SFire: the wait completes (asio).  SWake: the
   io_context calls a completed wait's handler, executeEvent.  SRun: an iteration of its loop takes an
   expired event and calls its callback; SReturn, SThrow: the callback ends; SDone: the loop ends.
   Not modelled: io_context::run or poll called from inside a callback. *)
Inductive sact := SSchedule (after : Z) | SCancel (i : nat) | SCancelAll | STime (d : Z) | SFire | SWake | SRun | SReturn | SThrow | SDone.
(* what is observed of an action *)
Inductive sobs := OSched (i : nat) (exp : Z) | OCancel (i : nat) | OCancelAll | ORun (i : nat) (t : Z).

(* Err ELogic: the action cannot happen in this state *)
Definition sc_step (a : sact) (s : sched) : res (sched * list sobs) :=
  match a with
  | SSchedule after => let! s' := sc_schedule after s in Ok (s', [OSched (sc_next s) (sc_now s + after)])
  | SCancel i => Ok (sc_cancel i s, [OCancel i])
  | SCancelAll => Ok (sc_cancelAll s, [OCancelAll])
  | STime d => if d <? 0 then Err ELogic else
      Ok (mkSched (sc_now s + d) (sc_next s) (sc_queue s) (sc_wait s) (sc_ready s) (sc_exec s) (sc_loop s), [])
  | SFire =>
      match sc_wait s with
      | Some t => if t <=? sc_now s then
          Ok (mkSched (sc_now s) (sc_next s) (sc_queue s) None (S (sc_ready s)) (sc_exec s) (sc_loop s), []) else Err ELogic
      | None => Err ELogic
      end
  | SWake =>
      match sc_loop s, sc_ready s with
      | None, S k => Ok (mkSched (sc_now s) (sc_next s) (sc_queue s) (sc_wait s) k true (Some (sc_now s, false)), [])
      | _, _ => Err ELogic
      end
  | SRun =>
      match sc_loop s, sc_queue s with
      | Some (now, false), e :: q =>
          if now <? ev_exp e then Err ELogic else
          Ok (mkSched (sc_now s) (sc_next s) q (sc_wait s) (sc_ready s) (sc_exec s) (Some (now, true)), [ORun (ev_id e) (sc_now s)])
      | _, _ => Err ELogic
      end
  | SReturn =>
      match sc_loop s with
      | Some (now, true) =>
          Ok (mkSched (sc_now s) (sc_next s) (sc_queue s) (sc_wait s) (sc_ready s) (sc_exec s) (Some (now, false)), [])
      | _ => Err ELogic
      end
  | SThrow => match sc_loop s with Some (_, true) => Ok (sc_leave s, []) | _ => Err ELogic end
  | SDone =>
      match sc_loop s with
      | Some (now, false) =>
          match sc_queue s with
          | e :: _ => if now <? ev_exp e then Ok (sc_leave s, []) else Err ELogic
          | [] => Ok (sc_leave s, [])
          end
      | _ => Err ELogic
      end
  end.
(* the state and everything observed, after the actions *)
Fixpoint sc_run (l : list sact) (s : sched) : res (sched * list sobs) :=
  match l with
  | [] => Ok (s, [])
  | a :: l' => let! r1 := sc_step a s in let! r2 := sc_run l' (fst r1) in Ok (fst r2, snd r1 ++ snd r2)
  end.

(* detail/cancel-handle.hpp:35-135: ScopedEventId variables.  A variable holds the event its handle would
   cancel, or nothing.  HAssign v i: v = <EventId of i>; HMove v w: v = std::move(w); HDestroy: the
   destructor; HCancel: v.cancel(); HRelease: v.release(), with the EventId returned dropped. *)
Inductive hop := HAct (a : sact) | HAssign (v i : nat) | HMove (v w : nat) | HDestroy (v : nat) | HCancel (v : nat) | HRelease (v : nat).
Definition hstore := nat -> option nat.
Definition hput (v : nat) (x : option nat) (h : hstore) : hstore := fun w => if Nat.eqb w v then x else h w.
(* CancelHandle::cancel, cancel-handle.cpp:27-34: calls cancelImpl once *)
Definition hcancel (v : nat) (h : hstore) : list sact := match h v with Some i => [SCancel i] | None => [] end.
Definition hs_acts (o : hop) (h : hstore) : list sact * hstore :=
  match o with
  | HAct a => ([a], h)
  | HAssign v i => (hcancel v h, hput v (Some i) h)
  | HMove v w => let h1 := hput v None h in (hcancel v h, hput w None (hput v (h1 w) h1))
  | HDestroy v | HCancel v => (hcancel v h, hput v None h)
  | HRelease v => ([], hput v None h)
  end.
Fixpoint hs_run (l : list hop) (s : sched) (h : hstore) : res (sched * hstore * list sobs) :=
  match l with
  | [] => Ok (s, h, [])
  | o :: l' =>
      let! r1 := sc_run (fst (hs_acts o h)) s in
      let! r2 := hs_run l' (fst r1) (snd (hs_acts o h)) in
      Ok (fst r2, snd r1 ++ snd r2)
  end.
