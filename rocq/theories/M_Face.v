(* Face: face.cpp, impl/face-impl.hpp, impl/record-container.hpp, impl/pending-interest.hpp,
   impl/interest-filter-record.hpp, interest-filter.cpp.
   Every public operation posts a task to the io_context, so callbacks cannot change the tables while a table is
   being visited: a callback is an event, after which it may throw.  API calls made by callbacks are API calls of the
   history.  Packets are abstracted as in M_Ims: names are lists of (type, value).  Not modelled: transport and its
   pause/resume, Scheduler order (a pending timer may fire at any time), prefix registration, tags. *)
From Verif Require Import Base S_Name M_Ims.

Inductive origin := APP | FORWARDER.                      (* impl/pending-interest.hpp:37-41 *)
(* pending-interest.hpp:175-183; f_timer: m_timeoutEvent is pending.  All three callbacks are assumed to be given. *)
Record pend := mkPend { f_id : N; f_q : qint; f_origin : origin; f_nn : Z; f_least : option N; f_timer : bool }.
(* interest-filter.hpp: prefix, regular expression on the components after the prefix (here any predicate), loopback *)
Record filt := mkFilt { fl_prefix : list key; fl_regex : option (list key -> bool); fl_loop : bool }.

(* the tasks posted by the functions of Face (face.cpp:150-231, 300-312, 368-376, 425-433) *)
Inductive ftask :=
| TExpress (id : N) (q : qint) (big : bool)  (* big: the encoding exceeds MAX_NDN_PACKET_SIZE *)
| TRemove (id : N) | TRemoveAll
| TPutData (d : pkt) (big : bool) | TPutNack (q : qint) (r : N) (big : bool)
| TSetFilter (id : N) (f : filt) | TUnset (id : N) | TShutdown.
Record face := mkFace { fc_last : N; fc_pit : list pend; fc_flast : N; fc_filters : list (N * filt); fc_queue : list ftask }.
Definition fc_init : face := mkFace 0 [] 0 [] [].

(* what the application and the forwarder see, and what the face processes *)
Inductive fev :=
| EvStart (id : N) (o : origin) (q : qint)   (* the Interest becomes pending *)
| EvSendI (id : N)                           (* it is sent to the forwarder *)
| EvFilter (fid : N) (id : N)                (* the Interest callback of a filter is invoked with it *)
| EvNack (q : qint) (r : N)                  (* a Nack is processed *)
| EvData (d : pkt)                           (* a Data is processed *)
| EvCbData (id : N) (d : pkt) | EvCbNack (id : N) (r : N) | EvCbTimeout (id : N)
| EvRemove (id : N) | EvRemoveAll
| EvSendData (d : pkt) | EvSendNack (q : qint) (r : N).

(* std::map::try_emplace, record-container.hpp:102-112; an existing id fails the BOOST_VERIFY *)
Fixpoint pit_put (e : pend) (l : list pend) : res (list pend) :=
  match l with
  | [] => Ok [e]
  | x :: l' => if f_id e <? f_id x then Ok (e :: l) else if f_id e =? f_id x then Err EAssert else let! r := pit_put e l' in Ok (x :: r)
  end.
Definition pit_erase (id : N) (l : list pend) : list pend := filter (fun e => negb (f_id e =? id)) l.

(* interest.cpp:343-349 matchesInterest *)
Definition q_eqb (a b : qint) : bool :=
  names_eqb (q_name a) (q_name b) && Bool.eqb (q_cbp a) (q_cbp b) && Bool.eqb (q_mbf a) (q_mbf b).
(* lp/nack-header.cpp:44-55 *)
Definition isLessSevere (x y : N) : bool := if x =? 0 then false else if y =? 0 then true else x <? y.
(* a callback that throws: the k-th callback of the action *)
Definition dec (k : option nat) : option nat := match k with Some (S m) => Some m | _ => None end.
Definition now (k : option nat) : bool := match k with Some O => true | _ => false end.

Record sat := mkSat { sa_pit : list pend; sa_ev : list fev; sa_app : bool; sa_fwd : bool; sa_thr : bool }.
(* face-impl.hpp:133-156 satisfyPendingInterests, with removeIf (record-container.hpp:147-162) *)
Fixpoint satisfy (d : pkt) (k : option nat) (l : list pend) : sat :=
  match l with
  | [] => mkSat [] [] false false false
  | e :: l' =>
      if negb (q_matches (f_q e) d) then
        let r := satisfy d k l' in mkSat (e :: sa_pit r) (sa_ev r) (sa_app r) (sa_fwd r) (sa_thr r)
      else match f_origin e with
           | APP =>
               if now k then mkSat l [EvCbData (f_id e) d] true false true
               else let r := satisfy d (dec k) l' in mkSat (sa_pit r) (EvCbData (f_id e) d :: sa_ev r) true (sa_fwd r) (sa_thr r)
           | FORWARDER => let r := satisfy d k l' in mkSat (sa_pit r) (sa_ev r) (sa_app r) true (sa_thr r)
           end
  end.

(* pending-interest.hpp:117-128 recordNack *)
Definition recordNack (r : N) (e : pend) : res (pend * option N) :=
  let n := (f_nn e - 1)%Z in
  if (n <? 0)%Z then Err EAssert else
  let least := match f_least e with Some y => if isLessSevere r y then r else y | None => r end in
  Ok (mkPend (f_id e) (f_q e) (f_origin e) n (Some least) (f_timer e), if (0 <? n)%Z then None else Some least).
Record nak := mkNak { na_pit : list pend; na_ev : list fev; na_out : option N; na_thr : bool }.
(* face-impl.hpp:161-189 nackPendingInterests.  The Nack reported to the forwarder carries the Interest of the
   least severe Nack, which equals q up to the fields not modelled. *)
Fixpoint nackPend (q : qint) (r : N) (k : option nat) (l : list pend) : res nak :=
  match l with
  | [] => Ok (mkNak [] [] None false)
  | e :: l' =>
      if negb (q_eqb q (f_q e)) then
        let! x := nackPend q r k l' in Ok (mkNak (e :: na_pit x) (na_ev x) (na_out x) (na_thr x))
      else
        let! p := recordNack r e in
        match snd p with
        | None => let! x := nackPend q r k l' in Ok (mkNak (fst p :: na_pit x) (na_ev x) (na_out x) (na_thr x))
        | Some least =>
            match f_origin e with
            | APP =>
                if now k then Ok (mkNak (fst p :: l') [EvCbNack (f_id e) least] None true)
                else let! x := nackPend q r (dec k) l' in Ok (mkNak (na_pit x) (EvCbNack (f_id e) least :: na_ev x) (na_out x) (na_thr x))
            | FORWARDER =>
                let! x := nackPend q r k l' in
                Ok (mkNak (na_pit x) (na_ev x) (match na_out x with Some y => Some y | None => Some least end) (na_thr x))
            end
        end
  end.

(* interest-filter.cpp:55-61, impl/interest-filter-record.hpp:59-65 *)
Definition fl_matches (f : filt) (o : origin) (n : list key) : bool :=
  (match o with FORWARDER => true | APP => fl_loop f end) &&
  prefixb (fl_prefix f) n &&
  match fl_regex f with None => true | Some r => r (skipn (length (fl_prefix f)) n) end.
(* face-impl.hpp:353-364 dispatchInterest: the number of destinations recorded, the events, whether it threw *)
Fixpoint dispatch (id : N) (o : origin) (n : list key) (k : option nat) (l : list (N * filt)) : N * list fev * bool :=
  match l with
  | [] => (0, [], false)
  | (fid, f) :: l' =>
      if fl_matches f o n then
        if now k then (1, [EvFilter fid id], true)
        else let '(c, ev, t) := dispatch id o n (dec k) l' in (c + 1, EvFilter fid id :: ev, t)
      else dispatch id o n k l'
  end.
Definition addCount (id : N) (c : N) (l : list pend) : list pend :=
  map (fun e => if f_id e =? id then mkPend (f_id e) (f_q e) (f_origin e) (f_nn e + Z.of_N c) (f_least e) (f_timer e) else e) l.
Definition setPit l s := mkFace (fc_last s) l (fc_flast s) (fc_filters s) (fc_queue s).
Definition setFilters l s := mkFace (fc_last s) (fc_pit s) (fc_flast s) l (fc_queue s).
Definition post t s := mkFace (fc_last s) (fc_pit s) (fc_flast s) (fc_filters s) (fc_queue s ++ [t]).

Definition out : Type := face * list fev * bool.   (* the last: an exception leaves the handler *)
(* face-impl.hpp:91-112 expressInterest *)
Definition fi_express (id : N) (q : qint) (big : bool) (k : option nat) (s : face) : res out :=
  let! p := pit_put (mkPend id q APP 1 None true) (fc_pit s) in
  if big then Ok (setPit p s, [EvStart id APP q], true)
  else
    let '(c, ev, t) := dispatch id APP (q_name q) k (fc_filters s) in
    Ok (setPit (addCount id c p) s, EvStart id APP q :: EvSendI id :: ev, t).
(* face-impl.hpp:209-215 processIncomingInterest *)
Definition fi_incoming (q : qint) (k : option nat) (s : face) : res out :=
  let id := fc_last s + 1 in
  let! p := pit_put (mkPend id q FORWARDER 0 None true) (fc_pit s) in
  let '(c, ev, t) := dispatch id FORWARDER (q_name q) k (fc_filters s) in
  Ok (mkFace id (addCount id c p) (fc_flast s) (fc_filters s) (fc_queue s), EvStart id FORWARDER q :: ev, t).
(* face-impl.hpp:133-156 on a received Data, face.cpp:364-371 *)
Definition fi_data (d : pkt) (k : option nat) (s : face) : out :=
  let r := satisfy d k (fc_pit s) in (setPit (sa_pit r) s, EvData d :: sa_ev r, sa_thr r).
(* face-impl.hpp:217-234 putData *)
Definition fi_putData (d : pkt) (big : bool) (k : option nat) (s : face) : out :=
  let r := satisfy d k (fc_pit s) in
  let s' := setPit (sa_pit r) s in
  if sa_thr r then (s', EvData d :: sa_ev r, true)
  else if negb (sa_fwd r || negb (sa_app r)) then (s', EvData d :: sa_ev r, false)
  else if big then (s', EvData d :: sa_ev r, true)
  else (s', EvData d :: sa_ev r ++ [EvSendData d], false).
(* face-impl.hpp:161-189 on a received Nack, face.cpp:349-357 *)
Definition fi_nack (q : qint) (r : N) (k : option nat) (s : face) : res out :=
  let! x := nackPend q r k (fc_pit s) in Ok (setPit (na_pit x) s, EvNack q r :: na_ev x, na_thr x).
(* face-impl.hpp:236-254 putNack *)
Definition fi_putNack (q : qint) (r : N) (big : bool) (k : option nat) (s : face) : res out :=
  let! x := nackPend q r k (fc_pit s) in
  let s' := setPit (na_pit x) s in
  if na_thr x then Ok (s', EvNack q r :: na_ev x, true)
  else match na_out x with
       | None => Ok (s', EvNack q r :: na_ev x, false)
       | Some o => if big then Ok (s', EvNack q r :: na_ev x, true)
                   else Ok (s', EvNack q r :: na_ev x ++ [EvSendNack q o], false)
       end.
(* pending-interest.hpp:152-172: the timeout event of an entry *)
Definition fi_timer (id : N) (k : option nat) (s : face) : out :=
  match List.find (fun e => f_id e =? id) (fc_pit s) with
  | Some e =>
      if f_timer e then
        match f_origin e with
        | APP =>
            if now k then
              (setPit (map (fun x => if f_id x =? id then mkPend (f_id x) (f_q x) (f_origin x) (f_nn x) (f_least x) false else x) (fc_pit s)) s, [EvCbTimeout id], true)
            else (setPit (pit_erase id (fc_pit s)) s, [EvCbTimeout id], false)
        | FORWARDER => (setPit (pit_erase id (fc_pit s)) s, [], false)
        end
      else (s, [], false)
  | None => (s, [], false)
  end.

Definition run_task (t : ftask) (k : option nat) (s : face) : res out :=
  match t with
  | TExpress id q big => fi_express id q big k s
  | TRemove id => Ok (setPit (pit_erase id (fc_pit s)) s, [EvRemove id], false)          (* face-impl.hpp:114-122 *)
  | TRemoveAll | TShutdown => Ok (setPit [] s, [EvRemoveAll], false)                     (* 124-128, 316-322 *)
  | TPutData d big => Ok (fi_putData d big k s)
  | TPutNack q r big => fi_putNack q r big k s
  | TSetFilter id f => Ok (setFilters (fc_filters s ++ [(id, f)]) s, [], false)          (* 192-197; ids increase *)
  | TUnset id => Ok (setFilters (filter (fun x => negb (fst x =? id)) (fc_filters s)) s, [], false)   (* 366-374 *)
  end.

Inductive fact :=
| AExpress (q : qint) (big : bool) | ACancel (id : N) | ARemoveAll | APutData (d : pkt) (big : bool)
| APutNack (q : qint) (r : N) (big : bool) | ASetFilter (f : filt) | AUnset (id : N) | AShutdown
| ARun (k : option nat)                                   (* the io_context runs the next posted task *)
| AInterest (q : qint) (k : option nat) | AData (d : pkt) (k : option nat) | ANack (q : qint) (r : N) (k : option nat)
                                                          (* face.cpp:338-374 onReceiveElement *)
| ATimer (id : N) (k : option nat).
(* pe: the io_context is run by Face::processEvents, which shuts the face down when a handler throws
   (face.cpp:266 make_scope_fail, 276); otherwise the application runs the io_context itself *)
Definition fc_finish (pe : bool) (o : out) : face * list fev :=
  let '(s, ev, t) := o in if t && pe then (setPit [] s, ev ++ [EvRemoveAll]) else (s, ev).
(* A handle is only had for an id already allocated. *)
Definition fc_step (pe : bool) (a : fact) (s : face) : res (face * list fev) :=
  match a with
  | AExpress q big =>
      let id := fc_last s + 1 in
      Ok (post (TExpress id q big) (mkFace id (fc_pit s) (fc_flast s) (fc_filters s) (fc_queue s)), [])
  | ACancel id => Ok (if id <=? fc_last s then post (TRemove id) s else s, [])
  | ARemoveAll => Ok (post TRemoveAll s, [])
  | APutData d big => Ok (post (TPutData d big) s, [])
  | APutNack q r big => Ok (post (TPutNack q r big) s, [])
  | ASetFilter f =>
      let id := fc_flast s + 1 in
      Ok (post (TSetFilter id f) (mkFace (fc_last s) (fc_pit s) id (fc_filters s) (fc_queue s)), [])
  | AUnset id => Ok (if id <=? fc_flast s then post (TUnset id) s else s, [])
  | AShutdown => Ok (post TShutdown s, [])
  | ARun k =>
      match fc_queue s with
      | [] => Ok (s, [])
      | t :: rest => let! o := run_task t k (mkFace (fc_last s) (fc_pit s) (fc_flast s) (fc_filters s) rest) in Ok (fc_finish pe o)
      end
  | AInterest q k => let! o := fi_incoming q k s in Ok (fc_finish pe o)
  | AData d k => Ok (fc_finish pe (fi_data d k s))
  | ANack q r k => let! o := fi_nack q r k s in Ok (fc_finish pe o)
  | ATimer id k => Ok (fc_finish pe (fi_timer id k s))
  end.
Fixpoint fc_run (pe : bool) (l : list fact) (s : face) : res (face * list fev) :=
  match l with
  | [] => Ok (s, [])
  | a :: l' => let! r := fc_step pe a s in let! r' := fc_run pe l' (fst r) in Ok (fst r', snd r ++ snd r')
  end.
