(* Model of net/network-interface.cpp: addresses, state and MTU, with their signals. *)
From Verif Require Import Base.
Open Scope list_scope.
Open Scope N_scope.

(* network-address.hpp:132-137: the address by which objects are compared (125-129), whether it is unspecified, and the other fields together *)
Record naddr := mkNa { na_ip : N; na_unspec : bool; na_more : N }.
(* network-interface.hpp:251-255: the set of addresses (its order is left out), state, MTU *)
Record netif := mkNi { ni_addrs : list naddr; ni_state : N; ni_mtu : N }.
(* signals: network-interface.hpp:74-83 onAddressAdded, onAddressRemoved, onStateChanged, onMtuChanged *)
Inductive nsig := SigAdded (a : naddr) | SigRemoved (a : naddr) | SigState (old new : N) | SigMtu (old new : N).
(* the calls of network-interface.cpp:37-63 and 90-106; a network monitor makes them *)
Inductive nop := OpAdd (a : naddr) | OpRemove (a : naddr) | OpState (s : N) | OpMtu (m : N).

(* network-interface.cpp:43,57 std::set::erase by key: what is left, and whether something was erased *)
Definition ni_erase (ip : N) (l : list naddr) : list naddr := filter (fun a => negb (na_ip a =? ip)) l.
Definition ni_has (ip : N) (l : list naddr) : bool := existsb (fun a => na_ip a =? ip) l.
(* network-interface.cpp:37-52 addNetworkAddress *)
Definition ni_add (a : naddr) (s : netif) : netif * list nsig * bool :=
  if na_unspec a then (s, [], false)
  else
    let new := negb (ni_has (na_ip a) (ni_addrs s)) in
    (mkNi (a :: ni_erase (na_ip a) (ni_addrs s)) (ni_state s) (ni_mtu s), if new then [SigAdded a] else [], new).
(* network-interface.cpp:54-63 removeNetworkAddress *)
Definition ni_remove (a : naddr) (s : netif) : netif * list nsig * bool :=
  if ni_has (na_ip a) (ni_addrs s) then (mkNi (ni_erase (na_ip a) (ni_addrs s)) (ni_state s) (ni_mtu s), [SigRemoved a], true) else (s, [], false).
(* network-interface.cpp:90-97 setState, 99-106 setMtu; they return nothing *)
Definition ni_setState (v : N) (s : netif) : netif * list nsig :=
  if ni_state s =? v then (s, []) else (mkNi (ni_addrs s) v (ni_mtu s), [SigState (ni_state s) v]).
Definition ni_setMtu (v : N) (s : netif) : netif * list nsig :=
  if ni_mtu s =? v then (s, []) else (mkNi (ni_addrs s) (ni_state s) v, [SigMtu (ni_mtu s) v]).
(* network-interface.cpp:37-63,90-106: one call, its signals, and the bool returned *)
Definition ni_step (s : netif) (o : nop) : netif * list nsig * option bool :=
  match o with
  | OpAdd a => let '(s', g, b) := ni_add a s in (s', g, Some b)
  | OpRemove a => let '(s', g, b) := ni_remove a s in (s', g, Some b)
  | OpState v => (ni_setState v s, None)
  | OpMtu v => (ni_setMtu v s, None)
  end.
(* network-interface.hpp:52,251,252: UNKNOWN is 0; m_mtu is 0 *)
Definition ni_init : netif := mkNi [] 0 0.
(* network-interface.cpp:37-63,90-106: a history of calls *)
Fixpoint ni_run (s : netif) (ops : list nop) : netif * list nsig :=
  match ops with
  | [] => (s, [])
  | o :: ops' => let '(s1, g1, _) := ni_step s o in let (s2, g2) := ni_run s1 ops' in (s2, g1 ++ g2)
  end.
