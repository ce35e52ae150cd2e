(* Observations on the history of a stream transport. *)
From Verif Require Import Base M_Tlv M_Transport S_Tlv.

Fixpoint sent (l : list tlog) : list bytes :=          (* packets passed to send(), in order *)
  match l with [] => [] | LSend w :: l' => w :: sent l' | _ :: l' => sent l' end.
Fixpoint written (l : list tlog) : bytes :=            (* octets that went to the socket *)
  match l with [] => [] | LXmit w :: l' => w ++ written l' | _ :: l' => written l' end.
Fixpoint received (l : list tlog) : bytes :=           (* octets that came from the socket *)
  match l with [] => [] | LRecv w :: l' => w ++ received l' | _ :: l' => received l' end.
Fixpoint delivered (l : list tlog) : list elem :=      (* packets given to the receive callback *)
  match l with [] => [] | LDeliver e :: l' => e :: delivered l' | _ :: l' => delivered l' end.
Definition thrown (l : list tlog) : Prop := In LThrow l.

(* a stream element within the maximum packet size *)
Definition is_packet (e : elem) : Prop := is_tlv (e_type e) (e_val e) (e_wire e) /\ nlen (e_wire e) <= 8800.

(* nobody pauses, closes or throws, and no operation fails *)
Definition calm_call (c : call) : Prop := match c with CSend _ | CResume => True | _ => False end.
Definition calm (e : tev) : Prop :=
  match e with
  | EvCall c => calm_call c
  | EvConn ok => ok = true
  | EvTimer | EvRecvErr _ | EvXmitErr _ => False
  | _ => True
  end.
Definition calm_cb (cb : list tlog -> list call) : Prop := forall l c, In c (cb l) -> calm_call c.
Definition is_call (c : call) (e : tev) : Prop := match e with EvCall c' => c' = c | _ => False end.
(* a receive operation has completed but its handler has not run *)
Definition read_queued (s : tr) : Prop := exists off r, In (off, r) (t_rds s) /\ r <> RWait.
(* some handler of a completed operation has not run *)
Definition handler_queued (s : tr) : Prop :=
  read_queued s \/ (exists w r, In (w, r) (t_wrs s) /\ r <> WWait) \/ t_conn s = CoOk \/ t_conn s = CoErr \/ t_tm s = TmFired.
(* events other than calls of the application *)
Definition environment (e : tev) : Prop := match e with EvCall _ => False | _ => True end.
(* progress of writes only *)
Definition write_progress (e : tev) : Prop := match e with EvXmit _ _ | EvWriteH _ => True | _ => False end.
(* the callback never pauses *)
Definition no_pause_cb (cb : list tlog -> list call) : Prop := forall l, ~ In CPause (cb l).
(* pause() is only called when no completed receive operation is waiting for its handler *)
Fixpoint polite (cb : list tlog -> list call) (s : tr) (evs : list tev) : Prop :=
  match evs with
  | [] => True
  | e :: evs' =>
      (e = EvCall CPause -> ~ read_queued s) /\
      match tstep cb s e with
      | (s', None) => polite cb s' evs'
      | (s', Some x) => if catchable x then polite cb (say LThrow s') evs' else True
      end
  end.
