(* Vocabulary of the statements about network interfaces. *)
From Verif Require Import Base M_NetIf.
Open Scope list_scope.
Open Scope N_scope.

(* the operation is about the address ip *)
Definition about (ip : N) (o : nop) : Prop := match o with OpAdd a => na_ip a = ip /\ na_unspec a = false | OpRemove a => na_ip a = ip | _ => False end.
(* a was added and nothing was done about its address since *)
Definition latest (ops : list nop) (a : naddr) : Prop :=
  exists h1 h2, ops = h1 ++ OpAdd a :: h2 /\ na_unspec a = false /\ forall o, In o h2 -> ~ about (na_ip a) o.
(* the signals about ip: true for added, false for removed *)
Definition told (ip : N) (g : list nsig) : list bool :=
  flat_map (fun x => match x with SigAdded a => if na_ip a =? ip then [true] else [] | SigRemoved a => if na_ip a =? ip then [false] else [] | _ => [] end) g.
(* from being present or not, the signals alternate and end in being present or not *)
Fixpoint alternate (now : bool) (l : list bool) (fin : bool) : Prop :=
  match l with [] => now = fin | x :: l' => x = negb now /\ alternate x l' fin end.
(* changes from a value, each to another, ending in a value *)
Fixpoint chain (now : N) (l : list (N * N)) (fin : N) : Prop :=
  match l with [] => now = fin | (a, b) :: l' => a = now /\ b <> a /\ chain b l' fin end.
Definition states (g : list nsig) : list (N * N) := flat_map (fun x => match x with SigState a b => [(a, b)] | _ => [] end) g.
Definition mtus (g : list nsig) : list (N * N) := flat_map (fun x => match x with SigMtu a b => [(a, b)] | _ => [] end) g.
(* the value last set, if any *)
Fixpoint last_state (v : N) (ops : list nop) : N := match ops with [] => v | OpState x :: r => last_state x r | _ :: r => last_state v r end.
Fixpoint last_mtu (v : N) (ops : list nop) : N := match ops with [] => v | OpMtu x :: r => last_mtu x r | _ :: r => last_mtu v r end.
