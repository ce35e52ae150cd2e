(* What a subscriber of a notification stream must do, in terms of the application's calls, the answers of the network and what is observed. *)
From Coq Require Import ZArith.
From Verif Require Import Base M_Tlv M_Name M_NotifSub.

(* no handler of the event throws *)
Definition quiet (e : sev) : Prop :=
  match e with EvData _ _ _ _ t | EvNack _ _ _ t | EvTimeout _ _ t => t = false | _ => True end.
(* no handler of onTimeout throws *)
Definition quiet_timeout (e : sev) : Prop := match e with EvTimeout _ _ t => t = false | _ => True end.

(* Every notification answers an Interest sent earlier: an initial one, or one for exactly its number, which was sent after the notification
   with the previous number had been delivered, with no other notification in between. *)
Definition in_sequence (o : list sout) : Prop :=
  forall a j m b, o = a ++ ODeliver j m :: b ->
  exists k a1 a2, a = a1 ++ OSend j k :: a2 /\
    (k = SInitial \/
     k = SNext m /\ exists i n c1 c2, a1 = c1 ++ ODeliver i n :: c2 /\ m = (n + 1) mod 2 ^ 64 /\ forall i' n', ~ In (ODeliver i' n') c2).
(* the Interests that were answered by a notification *)
Definition delivered_for (o : list sout) : list nat := flat_map (fun x => match x with ODeliver i _ => [i] | _ => [] end) o.

(* the numbers of the Nacks after which a retry was scheduled, the latest first *)
Fixpoint nacked (o : list sout) (acc : list N) : list N :=
  match o with
  | [] => acc
  | OWait n _ :: o' => nacked o' (n :: acc)
  | _ :: o' => nacked o' acc
  end.
(* how many of the latest are for the number n *)
Fixpoint streak (n : N) (l : list N) : N :=
  match l with x :: l' => if x =? n then 1 + streak n l' else 0 | [] => 0 end.
(* the number of Nacks among the events *)
Definition nacks (l : list sev) : nat := List.length (filter (fun e => match e with EvNack _ _ _ _ => true | _ => false end) l).
