(* What is expected of a scheduler, in terms of what is observed of it. *)
From Verif Require Import Base M_Scheduler.
From Coq Require Import ZArith.
Open Scope Z_scope.

(* the events pending after the observations: (identifier, expiry), latest scheduled first *)
Definition pend1 (p : list (nat * Z)) (o : sobs) : list (nat * Z) :=
  match o with
  | OSched i x => (i, x) :: p
  | OCancel i | ORun i _ => filter (fun e => negb (Nat.eqb (fst e) i)) p
  | OCancelAll => []
  end.
Definition pend (l : list sobs) : list (nat * Z) := fold_left pend1 l [].
(* earlier expiry, or the same and scheduled earlier *)
Definition sooner (a b : nat * Z) : Prop := snd a < snd b \/ snd a = snd b /\ (fst a < fst b)%nat.
Definition scheds (l : list sobs) : list nat := flat_map (fun o => match o with OSched i _ => [i] | _ => [] end) l.
Definition runs (l : list sobs) : list nat := flat_map (fun o => match o with ORun i _ => [i] | _ => [] end) l.
