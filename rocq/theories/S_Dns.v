(* Vocabulary of the statements about name resolution. *)
From Verif Require Import Base M_Dns.
Open Scope list_scope.

Section S.
Variable A : Type.
Variable sel : A -> bool.
(* a is the first address of l that the selector accepts *)
Definition first_of (l : list A) (a : A) : Prop := exists l1 l2, l = l1 ++ a :: l2 /\ sel a = true /\ forall x, In x l1 -> sel x = false.
(* the call that an answer deserves *)
Inductive deserves : answer A -> call A -> Prop :=
| ds_addr : forall l a, first_of l a -> deserves (Addrs l) (CallSuccess a)
| ds_none : forall l, (forall x, In x l -> sel x = false) -> deserves (Addrs l) (CallError (str "No endpoints match the specified address selector"))
| ds_fail : forall m, deserves (Fails m) (CallError (str "Hostname could not be resolved: " ++ m)).
Definition timed_out : call A := CallError (str "Hostname resolution timed out").
(* r is the first answer of the resolver, and the timer has not run before it *)
Definition in_time (evs : list (devent A)) (r : answer A) (rest : list (devent A)) : Prop :=
  exists l1, evs = l1 ++ EvResolved r :: rest /\ ~ In EvTimeout l1 /\ forall r', ~ In (EvResolved r') l1.
(* the timer runs although the handler with an answer is already waiting, and that handler runs later *)
Definition overtaken (evs : list (devent A)) (r : answer A) : Prop :=
  exists rest l2 l3, in_time evs r rest /\ rest = l2 ++ EvTimeout :: l3 /\ ~ In EvResult l2 /\ In EvResult l3.
(* the loop ran all it had to *)
Definition settled (evs : list (devent A)) : Prop := In EvTimeout evs \/ exists r rest, in_time evs r rest /\ In EvResult rest.
End S.
