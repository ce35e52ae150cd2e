(* Independent specification of what an application sees of a Face. *)
From Verif Require Import Base S_Name M_Ims S_Ims M_Face.

(* the answer callbacks of the Interest with this id *)
Definition answers (id : N) (e : fev) : Prop :=
  (exists d, e = EvCbData id d) \/ (exists r, e = EvCbNack id r) \/ e = EvCbTimeout id.

(* the destinations of an Interest, and the Nacks for it, in a part of the history *)
Definition is_dest (id : N) (e : fev) : bool :=
  match e with EvSendI i => i =? id | EvFilter _ i => i =? id | _ => false end.
Definition dests (id : N) (h : list fev) : nat := length (filter (is_dest id) h).
Inductive nacks (q : qint) : list fev -> list N -> Prop :=
| nk_nil : nacks q [] []
| nk_hit : forall h l r, nacks q h l -> nacks q (h ++ [EvNack q r]) (l ++ [r])
| nk_miss : forall h l e, nacks q h l -> (forall r, e <> EvNack q r) -> nacks q (h ++ [e]) l.
(* severity of Nack reasons: 0 (no reason) is the most severe, otherwise a smaller code is less severe *)
Definition less_severe (x y : N) : Prop := x <> 0 /\ (y = 0 \/ x < y).
Definition least_severe (r : N) (l : list N) : Prop := In r l /\ forall y, In y l -> ~ less_severe y r.

(* an Interest with this name, of this origin, is for this filter *)
Definition for_filter (f : filt) (o : origin) (n : list key) : Prop :=
  (o = APP -> fl_loop f = true) /\ exists rest, n = fl_prefix f ++ rest /\ forall r, fl_regex f = Some r -> r rest = true.

(* a face reached by a history; handled: exceptions leave through processEvents *)
Definition face_reached (handled : bool) (acts : list fact) (s : face) (h : list fev) : Prop := fc_run handled acts fc_init = Ok (s, h).
Definition pending (s : face) (id : N) (o : origin) (q : qint) : Prop :=
  exists e, In e (fc_pit s) /\ f_id e = id /\ f_origin e = o /\ f_q e = q.
(* the face processes a Data or a Nack: received from the forwarder, or put by the application in a packet that is
   not oversized; no callback throws *)
Definition hears_data (s : face) (a : fact) (d : pkt) : Prop :=
  a = AData d None \/ exists rest, a = ARun None /\ fc_queue s = TPutData d false :: rest.
Definition hears_nack (s : face) (a : fact) (q : qint) (r : N) : Prop :=
  a = ANack q r None \/ exists rest, a = ARun None /\ fc_queue s = TPutNack q r false :: rest.
