(* C99: the callbacks of dns::asyncResolve. *)
From Verif Require Import Base BaseLemmas M_Dns S_Dns P_Dns.
Open Scope list_scope.
Open Scope nat_scope.

(* C99: under every schedule of the resolver, the handler and the timer, the calls made are: none, and then not all has run; one that the answer deserves; the timeout;
   or, only if the timer overtook a waiting answer, the timeout and then the call that the answer deserves. *)
Theorem C99_calls : forall A sel evs,
  (dns_calls A sel true true evs = [] /\ ~ settled A evs) \/
  (exists r rest c, in_time A evs r rest /\ deserves A sel r c /\ dns_calls A sel true true evs = [c]) \/
  (In EvTimeout evs /\ dns_calls A sel true true evs = [timed_out A] /\ forall r, ~ overtaken A evs r) \/
  (exists r c, overtaken A evs r /\ deserves A sel r c /\ dns_calls A sel true true evs = [timed_out A; c]).
Proof. exact schedules. Qed.
Print Assumptions C99_calls.
(* C99: unless the timer overtakes a waiting answer there is exactly one call once all has run. *)
Theorem C99_once_partial : forall A sel evs, (forall r, ~ overtaken A evs r) -> settled A evs -> exists c, dns_calls A sel true true evs = [c].
Proof.
  intros A sel evs N S. destruct (schedules A sel evs) as [(_ & H)|[(r & rest & c & _ & _ & E)|[(_ & E & _)|(r & c & O & _)]]]; [contradiction|eauto|eauto|now destruct (N r)].
Qed.
Print Assumptions C99_once_partial.
(* C99: an answer that is handled before the timer runs is what is reported; a timer that runs before there is an answer is. *)
Theorem C99_answer : forall A sel evs r rest l2 l3, in_time A evs r rest -> rest = l2 ++ EvResult :: l3 -> ~ In EvTimeout l2 -> exists c, deserves A sel r c /\ dns_calls A sel true true evs = [c].
Proof. exact result_first. Qed.
Print Assumptions C99_answer.
Theorem C99_timeout : forall A sel l1 l2, (forall r, ~ In (EvResolved r) l1) -> dns_calls A sel true true (l1 ++ EvTimeout :: l2) = [timed_out A].
Proof. exact timeout_first. Qed.
Print Assumptions C99_timeout.
(* C99: an empty callback is not called, and changes nothing for the other. *)
Theorem C99_empty : forall A sel hasS hasE evs, dns_calls A sel hasS hasE evs = filter (fun c => match c with CallSuccess _ => hasS | CallError _ => hasE end) (dns_calls A sel true true evs).
Proof. intros A sel hasS hasE evs. exact (proj2 (run_heard A sel hasS hasE evs (dns_init A))). Qed.
Print Assumptions C99_empty.
Example C99_answer_case : dns_calls nat Nat.even true true [EvResult; EvResolved (Addrs [1; 4; 6]); EvResult; EvTimeout] = [CallSuccess 4] /\
  dns_calls nat Nat.even true true [EvResolved (Addrs [1; 3]); EvResult] = [CallError (str "No endpoints match the specified address selector")] /\
  in_time nat [EvResult; EvResolved (Addrs [1; 4; 6]); EvResult; EvTimeout] (Addrs [1; 4; 6]) [EvResult; EvTimeout].
Proof. repeat split. exists [EvResult]. split; [reflexivity|]. split; [intros [H|[]]; discriminate|intros r [H|[]]; discriminate]. Qed.
Example C99_timeout_case : dns_calls nat Nat.even true true [EvTimeout; EvResolved (Addrs [4]); EvResult; EvTimeout] = [timed_out nat].
Proof. reflexivity. Qed.
Example C99_once_case : forall r, ~ overtaken nat [EvResolved (Addrs [4]); EvResult; EvTimeout] r.
Proof.
  intros r (rest & l2 & l3 & (l1 & E & _) & -> & N & I). destruct l1 as [|x l1]; cbn [app] in E.
  - injection E as _ E. destruct l2 as [|y l2]; [discriminate|]. injection E as <- _. apply N. now left.
  - injection E as _ E. destruct l1 as [|x' l1]; [discriminate|]. injection E as _ E. destruct l1 as [|x'' l1]; [discriminate|]. injection E as _ E. destruct l1; discriminate.
Qed.
(* At most one call is not guaranteed: the timer may run when the handler is already waiting; then both callbacks are called. *)
Theorem C99_twice_refuted : exists evs : list (devent nat), dns_calls nat Nat.even true true evs = [timed_out nat; CallSuccess 4].
Proof. exists [EvResolved (Addrs [4]); EvTimeout; EvResult]. reflexivity. Qed.
Print Assumptions C99_twice_refuted.
