(* Independent specification of the dispatcher: what is registered, asked and sent, read off a history. *)
From Verif Require Import Base M_Tlv M_Name S_Name M_Ims S_Ims M_StatusDataset M_Dispatcher.

Definition history : Type := list entry.
Definition comparable (a b : names) : Prop := is_prefix a b \/ is_prefix b a.

(* the outputs of a history *)
Definition outs (e : entry) : list dout := snd (fst e).
Definition outputs (h : history) : list dout := List.concat (map outs h).
(* the packets put in the storage, oldest first *)
Definition kept_of (o : list dout) : list pkt := List.concat (map (fun x => match x with OKept p => [p] | _ => [] end) o).

(* the top-level prefixes in force: added without error and not removed since *)
Definition upd_tops (a : list names) (e : entry) : list names :=
  match e with
  | (DAddTop t, _, None) => t :: a
  | (DRemoveTop t, _, _) => filter (fun x => negb (names_eqb x t)) a
  | _ => a
  end.
Definition tops_of (h : history) : list names := fold_left upd_tops h [].
(* the commands, datasets and streams added without error *)
Definition upd_handlers (a : list (names * hkind)) (e : entry) : list (names * hkind) :=
  match e with (DAddHandler r k, _, None) => (r, k) :: a | _ => a end.
Definition handlers_of (h : history) : list (names * hkind) := fold_left upd_handlers h [].

(* a command, dataset or stream in force under a top-level prefix *)
Definition in_force (h : history) (t r : names) (k : hkind) : Prop := In t (tops_of h) /\ In (r, k) (handlers_of h).
Definition under (t r : names) (q : qint) : Prop := is_prefix (t ++ r) (q_name q).

(* the name ends with a version or a segment number *)
Definition ends_numbered (d : convention) (n : names) : Prop :=
  exists f c, n = f ++ [ckey c] /\ (isKind d KVersion c = true \/ isKind d KSegment c = true).

(* the effect of an Interest on the handler it reaches *)
Inductive reaction (dconv : convention) (h : history) (m : ims) (t r : names) (q : qint) (parses : bool) : hkind -> list dout -> Prop :=
| re_malformed : forall c, (parses = false \/ c = true /\ nlen (q_name q) <= nlen t + 2) -> reaction dconv h m t r q parses (HCommand c) []
| re_command : forall (c : bool) i, parses = true -> nlen t + (if c then 2 else nlen r) < nlen (q_name q) -> (forall r', ~ In (OAuthorize i r') (outputs h)) ->
    reaction dconv h m t r q parses (HCommand c) [OAuthorize i (mkReq (HCommand c) t r q)]
| re_stored : forall k p, k = HDataset \/ k = HStream -> In p (stored m) -> q_accepts q p -> reaction dconv h m t r q parses k [OSent p BStored]
| re_numbered : (forall p, ~ q_eligible q m p) -> ends_numbered dconv (q_name q) -> reaction dconv h m t r q parses HDataset []
| re_dataset : forall i, (forall p, ~ q_eligible q m p) -> ~ ends_numbered dconv (q_name q) -> (forall r', ~ In (OAuthorize i r') (outputs h)) ->
    reaction dconv h m t r q parses HDataset [OAuthorize i (mkReq HDataset t r q)]
| re_nothing : (forall p, ~ q_eligible q m p) -> reaction dconv h m t r q parses HStream [].

(* what entitles the dispatcher to an output, given the history before and the event *)
Definition asked (h : history) (i : nat) (r : dreq) : Prop := In (OAuthorize i r) (outputs h).
Definition response (r : dreq) (dg : bytes) : pkt := mkPkt (q_name (rq_int r)) dg.
Definition justified (dconv : convention) (h : history) (e : devent) (o : dout) : Prop :=
  match o with
  | OAuthorize i r => exists parses, e = DInterest (rq_int r) parses /\ under (rq_top r) (rq_rel r) (rq_int r) /\
      (exists h1 h2, h = h1 ++ h2 /\ in_force h1 (rq_top r) (rq_rel r) (rq_kind r)) /\
      match rq_kind r with
      | HCommand c => parses = true /\ nlen (rq_top r) + (if c then 2 else nlen (rq_rel r)) < nlen (q_name (rq_int r))
      | HDataset => ~ ends_numbered dconv (q_name (rq_int r))
      | HStream => False
      end
  | OCommand c r => exists i sg, e = DAccept i true sg /\ asked h i r /\ exists b, rq_kind r = HCommand b
  | ODataset c r => exists i v sg, e = DAccept i v sg /\ asked h i r /\ rq_kind r = HDataset
  | OSent p (BResponse code) =>
      (exists i r dg, e = DReject i true (Some dg) /\ asked h i r /\ code = 403 /\ p = response r dg) \/
      (exists i r dg b, e = DAccept i false (Some dg) /\ asked h i r /\ rq_kind r = HCommand b /\ code = 400 /\ p = response r dg) \/
      (exists c r dg, e = DDone c code (Some dg) /\ In (OCommand c r) (outputs h) /\ p = response r dg)
  | OSent p (BNack resp) => exists c r dg, e = DContext c (SdNack resp) (Some dg) /\ In (ODataset c r) (outputs h) /\ p = response r dg
  | OSent p (BSegment content final) => exists c r n dg, e = DContext c (SdData n content final) (Some dg) /\
      In (ODataset c r) (outputs h) /\ p = mkPkt (nkey n) dg
  | OSent p BNotification => exists r dg, e = DPost r (Some dg) /\ In (r, HStream) (handlers_of h) /\ pk_digest p = dg
  | OSent p BStored => exists q parses, e = DInterest q parses /\ q_accepts q p /\ In (OKept p) (outputs h)
  | OKept p =>
      (exists c r n content final dg, e = DContext c (SdData n content final) (Some dg) /\ In (ODataset c r) (outputs h) /\ p = mkPkt (nkey n) dg) \/
      (exists r dg, e = DPost r (Some dg) /\ In (r, HStream) (handlers_of h) /\ pk_digest p = dg)
  end.

(* the name of the stream that a notification is posted to: there must be exactly one top-level prefix *)
Definition posted_to (h : history) (e : devent) : option names :=
  match e, tops_of h with
  | DPost r _, [t] => if existsb (fun x => names_eqb (fst x) r && hkind_eqb (snd x) HStream) (handlers_of h) then Some (t ++ r) else None
  | _, _ => None
  end.
(* h followed by the events of rest: how many notifications were posted to n *)
Fixpoint posts_from (h rest : history) (n : names) : N :=
  match rest with
  | [] => 0
  | e :: rest' => (if match posted_to h (fst (fst e)) with Some m => names_eqb m n | None => false end then 1 else 0) + posts_from (h ++ [e]) rest' n
  end.
Definition posts (h : history) (n : names) : N := posts_from [] h n.
(* no stream is added whose relative prefix is the full name of a stream that was posted to before *)
Definition no_reset (h : history) : Prop := forall h1 n o h2, h = h1 ++ (DAddHandler n HStream, o, None) :: h2 -> posts h1 n = 0.

(* h is the history of a Dispatcher whose storage holds L packets, s the state it is in then.  (A smaller capacity and
   longer histories are excluded as in C30.) *)
Definition reaches (conv dconv : convention) (L : N) (evs : list devent) (s : dstate) (h : history) : Prop :=
  16 <= L /\ nlen evs < 2 ^ 59 /\ d_run conv dconv evs (d_init L) = (s, h).
