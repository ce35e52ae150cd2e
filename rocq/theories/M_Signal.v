(* Model of util/signal/{signal.hpp,connection.hpp,connection.cpp,scoped-connection.hpp,scoped-connection.cpp} *)
From Verif Require Import Base.
Open Scope N_scope.

(* signal.hpp:104-123 Slot.  A slot is identified by the number of the connection, which also stands for its list iterator and for the object that all
   copies of its Connection refer to; sl_live says that the slot still owns its disconnect function (the only shared_ptr). *)
Record slot := mkSlot { sl_id : N; sl_single : bool; sl_live : bool }.
(* signal.hpp:129-141; sg_cur = None is m_slots.end(); sg_next numbers the connections *)
Record sig := mkSig { sg_slots : list slot; sg_next : N; sg_exec : bool; sg_cur : option N }.
Definition sg_new : sig := mkSig [] 0 false None.

(* signal.hpp:149-173 connect, connectSingleShot; the Connection returned is the number of the slot *)
Definition sg_connect (single : bool) (s : sig) : sig :=
  mkSig (sg_slots s ++ [mkSlot (sg_next s) single true]) (sg_next s + 1) (sg_exec s) (sg_cur s).
(* connection.hpp:55-59 isConnected *)
Definition isConnected (c : N) (s : sig) : bool := existsb (fun x => (sl_id x =? c) && sl_live x) (sg_slots s).
(* std::list::erase of the element c *)
Definition erase (c : N) (l : list slot) : list slot := filter (fun x => negb (sl_id x =? c)) l.
(* connection.cpp:30-37 Connection::disconnect, calling signal.hpp:175-194 Signal::disconnect *)
Definition sg_disconnect (c : N) (s : sig) : res sig :=
  if isConnected c s then
    if sg_exec s then
      match sg_cur s with
      | Some c' => if c =? c' then Ok (mkSig (map (fun x => if sl_id x =? c then mkSlot (sl_id x) (sl_single x) false else x) (sg_slots s)) (sg_next s) true None)
                   else Err EAssert
      | None => Err EAssert
      end
    else Ok (mkSig (erase c (sg_slots s)) (sg_next s) false (sg_cur s))
  else Ok s.
(* signal.hpp:196-201 *)
Definition sg_isEmpty (s : sig) : bool := negb (sg_exec s) && match sg_slots s with [] => true | _ => false end.

(* what a handler does when called; it may throw *)
Inductive act := AConnect (single : bool) | ADisconnect (c : N) | AEmit | AThrow.
(* the result says whether an exception was thrown *)
Fixpoint run_acts (l : list act) (s : sig) : sig * res bool :=
  match l with
  | [] => (s, Ok false)
  | AConnect b :: l' => run_acts l' (sg_connect b s)
  | ADisconnect c :: l' => match sg_disconnect c s with Ok s1 => run_acts l' s1 | Err e => (s, Err e) end
  | AEmit :: _ => (s, Err EAssert) (* signal.hpp:207: emitting from a handler is not permitted *)
  | AThrow :: _ => (s, Ok true)
  end.
(* the call of the handler of a slot; signal.hpp:167-170 for single-shot ones *)
Definition call (x : slot) (l : list act) (s : sig) : sig * res bool :=
  match run_acts l s with
  | (s1, Ok false) => if sl_single x then match sg_disconnect (sl_id x) s1 with Ok s2 => (s2, Ok false) | Err e => (s1, Err e) end else (s1, Ok false)
  | r => r
  end.
(* ++it, and the value of m_slots.erase(it) *)
Fixpoint next_of (c : N) (l : list slot) : option slot :=
  match l with
  | [] => None
  | x :: l' => if sl_id x =? c then match l' with y :: _ => Some y | [] => None end else next_of c l'
  end.
(* signal.hpp:219-231: the loop.  `script k` is what the k-th handler called does; the trace lists the handlers called. *)
Fixpoint emit_loop (fuel : nat) (script : nat -> list act) (k : nat) (it : slot) (last : N) (s : sig) : sig * list N * res bool :=
  match fuel with
  | O => (s, [], Err EFuel)
  | S f =>
      let isLast := sl_id it =? last in
      match call it (script k) (mkSig (sg_slots s) (sg_next s) true (Some (sl_id it))) with
      | (s1, Ok false) =>
          let nx := next_of (sl_id it) (sg_slots s1) in
          let s2 := match sg_cur s1 with None => mkSig (erase (sl_id it) (sg_slots s1)) (sg_next s1) true None | Some _ => s1 end in
          if isLast then (s2, [sl_id it], Ok false)
          else match nx with
               | None => (s2, [sl_id it], Err EUb)
               | Some it' => let '(s3, tr, r) := emit_loop f script (S k) it' last s2 in (s3, sl_id it :: tr, r)
               end
      | (s1, r) => (s1, [sl_id it], r)
      end
  end.
(* signal.hpp:203-232 operator(); the guard clears m_isExecuting however the function is left *)
Definition sg_emit (script : nat -> list act) (s : sig) : sig * list N * res bool :=
  if sg_exec s then (s, [], Err EAssert)
  else match sg_slots s with
       | [] => (s, [], Ok false)
       | x :: l =>
           let '(s1, tr, r) := emit_loop (S (length l)) script 0 x (sl_id (List.last l x)) s in
           (mkSig (sg_slots s1) (sg_next s1) false (sg_cur s1), tr, r)
       end.

(* a history of one signal, seen from outside its handlers *)
Inductive sop := SConnect (single : bool) | SDisconnect (c : N) | SEmit (script : nat -> list act).
Definition s_step (o : sop) (s : sig) : sig * list N * res bool :=
  match o with
  | SConnect b => (sg_connect b s, [], Ok false)
  | SDisconnect c => match sg_disconnect c s with Ok s1 => (s1, [], Ok false) | Err e => (s, [], Err e) end
  | SEmit f => sg_emit f s
  end.

(* ---- ScopedConnection: m_connection, a weak_ptr that may be null ---- *)
Definition scoped := option N.
(* Connection operator==, connection.hpp:79-85 *)
Definition conn_eqb (a b : scoped) (s : sig) : bool :=
  let c x := match x with Some i => isConnected i s | None => false end in
  (negb (c a) && negb (c b)) || match a, b with Some i, Some j => i =? j | None, None => true | _, _ => false end.
Definition conn_disconnect (a : scoped) (s : sig) : res sig := match a with Some i => sg_disconnect i s | None => Ok s end.
(* scoped-connection.cpp:31-39 operator=(Connection) *)
Definition sc_assign (c : scoped) (a : scoped) (s : sig) : res (scoped * sig) :=
  if conn_eqb a c s then Ok (a, s) else let! s1 := conn_disconnect a s in Ok (c, s1).
(* scoped-connection.hpp:83-84 operator=(ScopedConnection&&), defaulted: moves the weak_ptr.  Returns (this, other). *)
Definition sc_move (a b : scoped) : scoped * scoped := (b, None).
(* scoped-connection.cpp:41-50 *)
Definition sc_destroy (a : scoped) (s : sig) : res sig := conn_disconnect a s.
(* scoped-connection.cpp:58-62 release: m_connection = {} *)
Definition sc_release (a : scoped) : scoped := None.
