(* Vocabulary for C57: what a signal should do, as a list of its connections *)
From Verif Require Import Base M_Signal.
Open Scope N_scope.

(* what a handler does before it returns or throws *)
Fixpoint done (l : list act) : list act := match l with [] => [] | AThrow :: _ => [] | a :: l' => a :: done l' end.
Definition throws (l : list act) : Prop := In AThrow l.
Definition leaves (c : N) (l : list act) : bool := existsb (fun a => match a with ADisconnect d => d =? c | _ => false end) l.
Definition joins (l : list act) : list bool := flat_map (fun a => match a with AConnect b => [b] | _ => [] end) l.
(* connections made from number n on *)
Fixpoint numbered (n : N) (l : list bool) : list (N * bool) := match l with [] => [] | b :: l' => (n, b) :: numbered (n + 1) l' end.

(* the connections of a signal, in order: number, and whether single-shot; next is the number of the next one *)
Record asig := mkAsig { a_conns : list (N * bool); a_next : N }.
Definition a_new : asig := mkAsig [] 0.
(* after an emission in which the k-th connection's handler does `script k`: those stay that are not single-shot and do not disconnect themselves *)
Fixpoint stay (script : nat -> list act) (k : nat) (l : list (N * bool)) : list (N * bool) :=
  match l with
  | [] => []
  | (c, single) :: l' => (if single || leaves c (script k) then [] else [(c, single)]) ++ stay script (S k) l'
  end.
Fixpoint joined (script : nat -> list act) (k n : nat) : list bool := match n with O => [] | S n' => joins (script k) ++ joined script (S k) n' end.
(* one operation; the list of the handlers called *)
Definition a_step (o : sop) (a : asig) : asig * list N :=
  match o with
  | SConnect b => (mkAsig (a_conns a ++ [(a_next a, b)]) (a_next a + 1), [])
  | SDisconnect c => (mkAsig (filter (fun x => negb (fst x =? c)) (a_conns a)) (a_next a), [])
  | SEmit f =>
      let js := joined f 0 (length (a_conns a)) in
      (mkAsig (stay f 0 (a_conns a) ++ numbered (a_next a) js) (a_next a + N.of_nat (length js)), map fst (a_conns a))
  end.
Fixpoint a_run (l : list sop) (a : asig) : asig * list (list N) :=
  match l with [] => (a, []) | o :: l' => let (a1, c) := a_step o a in let (a2, cs) := a_run l' a1 in (a2, c :: cs) end.
(* the model over a history: the handlers called by each operation, and its outcome *)
Fixpoint s_run (l : list sop) (s : sig) : sig * list (list N * res bool) :=
  match l with [] => (s, []) | o :: l' => let '(s1, c, r) := s_step o s in let (s2, cs) := s_run l' s1 in (s2, (c, r) :: cs) end.

(* what the documentation permits the handler of connection c to do *)
Definition permitted (c : N) (l : list act) : Prop := Forall (fun a => match a with AConnect _ | AThrow => True | ADisconnect d => d = c | AEmit => False end) l.
(* a history in which every handler called does only what it may, and throws nothing *)
Fixpoint legal (l : list sop) (a : asig) : Prop :=
  match l with
  | [] => True
  | o :: l' =>
      match o with SEmit f => forall k c b, nth_error (a_conns a) k = Some (c, b) -> permitted c (f k) /\ ~ throws (f k) | _ => True end /\ legal l' (fst (a_step o a))
  end.
(* every operation of the history returned / returned or had an exception of a handler pass through *)
Definition all_returned (cs : list (list N * res bool)) : Prop := Forall (fun p => snd p = Ok false) cs.
Definition no_misuse (cs : list (list N * res bool)) : Prop := Forall (fun p => exists t, snd p = Ok t) cs.
(* the handlers called, over the history *)
Definition calls (cs : list (list N * res bool)) : list N := concat (map fst cs).
