(* Model of net/dns.cpp. *)
From Verif Require Import Base.
Open Scope list_scope.

(* what getaddrinfo answers: the addresses in order, or the text of an error *)
Inductive answer (A : Type) := Addrs (l : list A) | Fails (msg : bytes).
Arguments Addrs {A} l.  Arguments Fails {A} msg.
(* what the handler of async_resolve gets: an answer, or operation_aborted *)
Inductive result (A : Type) := Answer (r : answer A) | Aborted.
Arguments Answer {A} r.  Arguments Aborted {A}.
(* the operation: in progress; its handler waits for the event loop; its handler ran *)
Inductive opst (A : Type) := OWorking | OReady (r : result A) | OOver.
Arguments OWorking {A}.  Arguments OReady {A} r.  Arguments OOver {A}.
(* dns.cpp:105-112, with whether m_resolveTimeout is scheduled *)
Record dst (A : Type) := mkDns { d_op : opst A; d_timer : bool }.
Arguments mkDns {A} _ _.  Arguments d_op {A} _.  Arguments d_timer {A} _.
(* calls of the callbacks *)
Inductive call (A : Type) := CallSuccess (a : A) | CallError (msg : bytes).
Arguments CallSuccess {A} a.  Arguments CallError {A} msg.
(* what may happen, in any order: the resolver has an answer; the event loop runs the handler; the event loop runs the timer *)
Inductive devent (A : Type) := EvResolved (r : answer A) | EvResult | EvTimeout.
Arguments EvResolved {A} r.  Arguments EvResult {A}.  Arguments EvTimeout {A}.

Section Dns.
Variable A : Type.
Variable sel : A -> bool.        (* m_addressSelector *)
Variable hasS hasE : bool.       (* whether onSuccess and onError are not empty *)

Definition err_call (msg : bytes) : list (call A) := if hasE then [CallError msg] else [].
(* dns.cpp:77-88 the first address that the selector accepts *)
Fixpoint first_match (l : list A) : list (call A) :=
  match l with
  | [] => err_call (str "No endpoints match the specified address selector")
  | a :: l' => if sel a then (if hasS then [CallSuccess a] else []) else first_match l'
  end.
(* dns.cpp:60-89 onResolveResult, what it calls *)
Definition result_calls (r : result A) : list (call A) :=
  match r with
  | Aborted => []
  | Answer (Fails m) => err_call (str "Hostname could not be resolved: " ++ m)
  | Answer (Addrs l) => first_match l
  end.
(* dns.cpp:42-57 asyncResolve *)
Definition dns_init : dst A := mkDns OWorking true.
(* dns.cpp:60-103.  Scheduler: a cancelled event does not run.  cancel() of the resolver, as documented: an operation in progress completes with operation_aborted;
   one that has completed, its handler waiting, is not affected. *)
Definition dns_step (s : dst A) (e : devent A) : dst A * list (call A) :=
  match e with
  | EvResolved r => match d_op s with OWorking => (mkDns (OReady (Answer r)) (d_timer s), []) | _ => (s, []) end
  | EvResult => match d_op s with OReady r => (mkDns OOver false, result_calls r) | _ => (s, []) end
  | EvTimeout =>
      if d_timer s then
        (mkDns (match d_op s with OWorking => OReady Aborted | o => o end) false, err_call (str "Hostname resolution timed out"))
      else (s, [])
  end.
Fixpoint dns_run (s : dst A) (evs : list (devent A)) : dst A * list (call A) :=
  match evs with
  | [] => (s, [])
  | e :: evs' => let (s1, c1) := dns_step s e in let (s2, c2) := dns_run s1 evs' in (s2, c1 ++ c2)
  end.
Definition dns_calls (evs : list (devent A)) : list (call A) := snd (dns_run dns_init evs).
End Dns.
