(* Model of mgmt/dispatcher.{hpp,cpp}: which requests reach which command, dataset or notification stream, when the
   handler of the application is invoked, and what is sent and stored.
   Names are lists of (type, value).  Not modelled: registration of a top-level prefix with the forwarder
   (wantRegister), the contents of the Data, and Face::put beyond being called (put of a packet that is too large is
   caught and logged, dispatcher.cpp:152-160).  A callback of the application that calls a continuation at once is
   modelled as the call coming right after the callback; C76_one shows that no other handler runs in between. *)
From Coq Require Import ZArith.
From Verif Require Import Base M_Tlv M_Str M_Name S_Name M_Ims M_StatusDataset.

Definition names : Type := list key.

(* what m_handlers holds for a relative prefix: dispatcher.hpp:234-240 (checked = false), 284-290 (checked = true),
   dispatcher.cpp:239-241, 306-308 *)
Inductive hkind := HCommand (checked : bool) | HDataset | HStream.
Definition hkind_eqb (a b : hkind) : bool :=
  match a, b with
  | HCommand x, HCommand y => Bool.eqb x y
  | HDataset, HDataset | HStream, HStream => true
  | _, _ => false
  end.
(* an InterestFilter set on the Face for the handler of fr_rel under fr_top: dispatcher.cpp:74-82 *)
Record frec := mkF { fr_id : nat; fr_top : names; fr_rel : names; fr_kind : hkind }.
(* posted to the io_context by Face::setInterestFilter (face.cpp:227-239) and by the destruction of its handle (face.cpp:391-397, face-impl.hpp:199-207) *)
Inductive ptask := TSet (f : frec) | TUnset (i : nat).
(* a request passed to the application *)
Record dreq := mkReq { rq_kind : hkind; rq_top : names; rq_rel : names; rq_int : qint }.

(* dispatcher.hpp:502-515; d_table: the InterestFilter table of the Face (records of the Dispatcher), d_posted: tasks
   not yet run, oldest first; d_asked, d_cmds, d_ctxs: continuations given to the application so far, by number:
   those of authorizations, of command handlers, and the contexts of dataset handlers *)
Record dstate := mkD {
  d_handlers : list (names * hkind); d_tops : list (names * list nat); d_streams : list (names * N); d_ims : ims;
  d_table : list frec; d_nextid : nat; d_posted : list ptask;
  d_asked : list dreq; d_cmds : list dreq; d_ctxs : list dreq }.
Definition setHandlers v s := mkD v (d_tops s) (d_streams s) (d_ims s) (d_table s) (d_nextid s) (d_posted s) (d_asked s) (d_cmds s) (d_ctxs s).
Definition setTops v s := mkD (d_handlers s) v (d_streams s) (d_ims s) (d_table s) (d_nextid s) (d_posted s) (d_asked s) (d_cmds s) (d_ctxs s).
Definition setStreams v s := mkD (d_handlers s) (d_tops s) v (d_ims s) (d_table s) (d_nextid s) (d_posted s) (d_asked s) (d_cmds s) (d_ctxs s).
Definition setIms v s := mkD (d_handlers s) (d_tops s) (d_streams s) v (d_table s) (d_nextid s) (d_posted s) (d_asked s) (d_cmds s) (d_ctxs s).
Definition setTable v s := mkD (d_handlers s) (d_tops s) (d_streams s) (d_ims s) v (d_nextid s) (d_posted s) (d_asked s) (d_cmds s) (d_ctxs s).
Definition setNextid v s := mkD (d_handlers s) (d_tops s) (d_streams s) (d_ims s) (d_table s) v (d_posted s) (d_asked s) (d_cmds s) (d_ctxs s).
Definition setPosted v s := mkD (d_handlers s) (d_tops s) (d_streams s) (d_ims s) (d_table s) (d_nextid s) v (d_asked s) (d_cmds s) (d_ctxs s).
Definition setAsked v s := mkD (d_handlers s) (d_tops s) (d_streams s) (d_ims s) (d_table s) (d_nextid s) (d_posted s) v (d_cmds s) (d_ctxs s).
Definition setCmds v s := mkD (d_handlers s) (d_tops s) (d_streams s) (d_ims s) (d_table s) (d_nextid s) (d_posted s) (d_asked s) v (d_ctxs s).
Definition setCtxs v s := mkD (d_handlers s) (d_tops s) (d_streams s) (d_ims s) (d_table s) (d_nextid s) (d_posted s) (d_asked s) (d_cmds s) v.

(* dispatcher.cpp:44-51 constructor *)
Definition d_init (capacity : N) : dstate := mkD [] [] [] (im_init FIFO true capacity) [] 0 [] [] [] [].

(* what the Data that is put on the Face carries *)
Inductive body :=
  | BResponse (code : N)                 (* a ControlResponse *)
  | BNack (resp : bytes)                 (* a ControlResponse in a Data of type Nack *)
  | BSegment (content : bytes) (final : bool)
  | BNotification
  | BStored.                             (* Data found in m_storage *)
(* what the application and the network see *)
Inductive dout :=
  | OAuthorize (i : nat) (r : dreq)      (* Authorization called, with continuations i *)
  | OCommand (c : nat) (r : dreq)        (* ControlCommandHandler called, with continuation c *)
  | ODataset (c : nat) (r : dreq)        (* StatusDatasetHandler called, with context c *)
  | OSent (p : pkt) (b : body)           (* Face::put *)
  | OKept (p : pkt).                     (* inserted in m_storage *)
Definition dres : Type := dstate * list dout * option err.

Inductive devent :=
  | DAddTop (t : names)
  | DRemoveTop (t : names)
  | DAddHandler (r : names) (k : hkind)             (* addControlCommand, addStatusDataset, addNotificationStream *)
  | DTask                                           (* the io_context runs the oldest task posted *)
  | DInterest (q : qint) (parses : bool)            (* the Face receives an Interest; parses: do its parameters decode? *)
  | DAccept (i : nat) (valid : bool) (sg : option bytes)  (* AcceptContinuation i; valid: validate returns true *)
  | DReject (i : nat) (reply : bool) (sg : option bytes)  (* RejectContinuation i; reply: STATUS403 *)
  | DDone (c : nat) (code : N) (sg : option bytes)        (* CommandContinuation c *)
  | DContext (c : nat) (e : sdev) (sg : option bytes)     (* context c calls its m_dataSender or m_nackSender *)
  | DPost (r : names) (sg : option bytes)           (* PostNotification of the stream r *)
  | DStale (e : nat).                               (* the mark-stale timer of an entry of m_storage *)
(* sg: the implicit digest of the Data signed, None if signing throws *)

Section Dispatcher.
Variable conv : convention.    (* name::getConventionEncoding *)
Variable dconv : convention.   (* name::getConventionDecoding *)

Definition overlaps (a b : names) : bool := prefixb a b || prefixb b a.

(* dispatcher.cpp:73-82: one InterestFilter for each handler *)
Fixpoint d_filters (t : names) (hs : list (names * hkind)) (i : nat) : list frec :=
  match hs with
  | [] => []
  | (r, k) :: hs' => mkF i t r k :: d_filters t hs' (S i)
  end.
(* dispatcher.cpp:53-83 addTopPrefix *)
Definition d_addTop (t : names) (s : dstate) : dres :=
  if existsb (fun x => overlaps (fst x) t) (d_tops s) then (s, [], Some EOutOfRange)
  else
    let fs := d_filters t (d_handlers s) (d_nextid s) in
    (setPosted (d_posted s ++ map TSet fs)
      (setNextid (d_nextid s + List.length fs) (setTops ((t, map fr_id fs) :: d_tops s) s)), [], None).
(* dispatcher.cpp:85-89 removeTopPrefix; the handles of the entry are destroyed *)
Definition d_removeTop (t : names) (s : dstate) : dres :=
  let gone := filter (fun x => names_eqb (fst x) t) (d_tops s) in
  (setPosted (d_posted s ++ map TUnset (List.concat (map snd gone)))
    (setTops (filter (fun x => negb (names_eqb (fst x) t)) (d_tops s)) s), [], None).
(* dispatcher.cpp:91-104 checkPrefix *)
Definition d_checkPrefix (r : names) (s : dstate) : option err :=
  match d_tops s with
  | _ :: _ => Some EDomain
  | [] => if existsb (fun x => overlaps (fst x) r) (d_handlers s) then Some EOutOfRange else None
  end.
Definition d_getStream (n : names) (s : dstate) : N :=
  match List.find (fun x => names_eqb (fst x) n) (d_streams s) with Some x => snd x | None => 0 end.
Definition d_setStream (n : names) (v : N) (s : dstate) : dstate :=
  setStreams ((n, v) :: filter (fun x => negb (names_eqb (fst x) n)) (d_streams s)) s.
(* dispatcher.hpp:220-291, dispatcher.cpp:225-242, 299-312 *)
Definition d_addHandler (r : names) (k : hkind) (s : dstate) : dres :=
  match d_checkPrefix r s with
  | Some e => (s, [], Some e)
  | None =>
      let s1 := setHandlers ((r, k) :: d_handlers s) s in
      (match k with HStream => d_setStream r 0 s1 | _ => s1 end, [], None)
  end.
(* face-impl.hpp:192-197 and 366-374 *)
Definition d_task (s : dstate) : dres :=
  match d_posted s with
  | [] => (s, [], None)
  | TSet f :: l => (setTable (d_table s ++ [f]) (setPosted l s), [], None)
  | TUnset i :: l => (setTable (filter (fun f => negb (Nat.eqb (fr_id f) i)) (d_table s)) (setPosted l s), [], None)
  end.

(* dispatcher.cpp:130-149 sendData *)
Definition d_send (n : names) (b : body) (d : dest) (sg : option bytes) (s : dstate) : dres :=
  match sg with
  | None => (s, [], Some ERuntime)
  | Some dg =>
      let p := mkPkt n dg in
      match d with
      | ToFace => (s, [OSent p b], None)
      | ToIms | ToFaceAndIms =>
          match im_insert p true (d_ims s) with
          | Err e => (s, [], Some e)
          | Ok (m, _) => (setIms m s, OKept p :: match d with ToIms => [] | _ => [OSent p b] end, None)
          end
      end
  end.
(* a request whose authorization is asked for: dispatcher.cpp:180-186, 256-262 *)
Definition d_ask (r : dreq) (s : dstate) : dres :=
  (setAsked (d_asked s ++ [r]) s, [OAuthorize (List.length (d_asked s)) r], None).
(* the parameters of a command: dispatcher.hpp:228-232 (get: out of range is undefined), 273-275 with
   control-command.hpp:199-204 and control-command.cpp:52-57 (at: throws; the relative prefix has two components) *)
Definition d_parse (checked : bool) (t r : names) (q : qint) (parses : bool) : res bool :=
  if nlen (q_name q) <=? nlen t + (if checked then 2 else nlen r) then (if checked then Ok false else Err EUb) else Ok parses.
(* dispatcher.cpp:250-251 *)
Definition endsWithVersionOrSegment (n : names) : bool :=
  match rev n with
  | [] => false
  | k :: _ => let c := mkComp (fst k) None (snd k) in isKind dconv KVersion c || isKind dconv KSegment c
  end.
(* the handler of f runs for an Interest: processCommand dispatcher.cpp:162-186, queryStorage 114-128 with
   processStatusDatasetInterest 244-263 or without continuation *)
Definition d_handle (f : frec) (q : qint) (parses : bool) (s : dstate) : dres :=
  let r := mkReq (fr_kind f) (fr_top f) (fr_rel f) q in
  match fr_kind f with
  | HCommand checked =>
      match d_parse checked (fr_top f) (fr_rel f) q parses with
      | Err e => (s, [], Some e)
      | Ok false => (s, [], None)
      | Ok true => d_ask r s
      end
  | HDataset | HStream =>
      match im_findInterest q (d_ims s) with
      | Err e => (s, [], Some e)
      | Ok (m, _, Some p) => (setIms m s, [OSent p BStored], None)
      | Ok (m, _, None) =>
          let s1 := setIms m s in
          match fr_kind f with
          | HDataset => if endsWithVersionOrSegment (q_name q) then (s1, [], None) else d_ask r s1
          | _ => (s1, [], None)
          end
      end
  end.
(* face-impl.hpp:353-364 dispatchInterest, of the records of the Dispatcher; an exception ends the loop *)
Fixpoint d_dispatch (fs : list frec) (q : qint) (parses : bool) (s : dstate) : dres :=
  match fs with
  | [] => (s, [], None)
  | f :: fs' =>
      if prefixb (fr_top f ++ fr_rel f) (q_name q) then
        match d_handle f q parses s with
        | (s1, o, Some e) => (s1, o, Some e)
        | (s1, o, None) => let '(s2, o2, e) := d_dispatch fs' q parses s1 in (s2, o ++ o2, e)
        end
      else d_dispatch fs' q parses s
  end.

(* the AcceptContinuation: processAuthorizedCommand dispatcher.cpp:188-211, processAuthorizedStatusDatasetInterest 266-279 *)
Definition d_accept (i : nat) (valid : bool) (sg : option bytes) (s : dstate) : dres :=
  match nth_error (d_asked s) i with
  | None => (s, [], None)          (* there is no such continuation *)
  | Some r =>
      match rq_kind r with
      | HCommand _ =>
          if valid then (setCmds (d_cmds s ++ [r]) s, [OCommand (List.length (d_cmds s)) r], None)
          else d_send (q_name (rq_int r)) (BResponse 400) ToFace sg s
      | _ => (setCtxs (d_ctxs s ++ [r]) s, [ODataset (List.length (d_ctxs s)) r], None)
      end
  end.
(* the RejectContinuation: afterAuthorizationRejected dispatcher.cpp:106-112 *)
Definition d_reject (i : nat) (reply : bool) (sg : option bytes) (s : dstate) : dres :=
  match nth_error (d_asked s) i with
  | None => (s, [], None)
  | Some r => if reply then d_send (q_name (rq_int r)) (BResponse 403) ToFace sg s else (s, [], None)
  end.
(* dispatcher.cpp:203-205 *)
Definition d_done (c : nat) (code : N) (sg : option bytes) (s : dstate) : dres :=
  match nth_error (d_cmds s) c with
  | None => (s, [], None)
  | Some r => d_send (q_name (rq_int r)) (BResponse code) ToFace sg s
  end.
(* dispatcher.cpp:271-277, 281-297 sendStatusDatasetSegment, 213-223 sendControlResponse.  Which calls a context makes is C61. *)
Definition d_context (c : nat) (e : sdev) (sg : option bytes) (s : dstate) : dres :=
  match nth_error (d_ctxs s) c with
  | None => (s, [], None)
  | Some r =>
      match e with
      | SdNack resp => d_send (q_name (rq_int r)) (BNack resp) ToFace sg s
      | SdData n content final =>
          match nm_get (-1) n with
          | Err x => (s, [], Some x)
          | Ok l =>
              match toKind dconv KSegment l with
              | Err x => (s, [], Some x)
              | Ok i => d_send (nkey n) (BSegment content final) (if i =? 0 then ToFaceAndIms else ToIms) sg s
              end
          end
      end
  end.
(* dispatcher.cpp:314-329 postNotification *)
Definition d_post (r : names) (sg : option bytes) (s : dstate) : dres :=
  if negb (existsb (fun x => names_eqb (fst x) r && hkind_eqb (snd x) HStream) (d_handlers s)) then (s, [], None) (* there is no such function *)
  else
    match d_tops s with
    | [(t, _)] =>
        let n := t ++ r in
        let i := d_getStream n s in
        let s1 := d_setStream n ((i + 1) mod two64) s in
        match fromKind conv KSequenceNumber i with
        | Err e => (s1, [], Some e)
        | Ok c => d_send (n ++ [ckey c]) BNotification ToFaceAndIms sg s1
        end
    | _ => (s, [], None)
    end.

Definition d_step (e : devent) (s : dstate) : dres :=
  match e with
  | DAddTop t => d_addTop t s
  | DRemoveTop t => d_removeTop t s
  | DAddHandler r k => d_addHandler r k s
  | DTask => d_task s
  | DInterest q parses => d_dispatch (d_table s) q parses s
  | DAccept i v sg => d_accept i v sg s
  | DReject i reply sg => d_reject i reply sg s
  | DDone c code sg => d_done c code sg s
  | DContext c ev sg => d_context c ev sg s
  | DPost r sg => d_post r sg s
  | DStale x => (setIms (im_stale x (d_ims s)) s, [], None)
  end.
(* a history: every event with its outcome; nothing is said of what follows undefined behaviour *)
Definition entry : Type := devent * list dout * option err.
Fixpoint d_run (l : list devent) (s : dstate) : dstate * list entry :=
  match l with
  | [] => (s, [])
  | e :: l' =>
      let '(s1, o, x) := d_step e s in
      if match x with Some y => catchable y | None => true end
      then let '(s2, h) := d_run l' s1 in (s2, (e, o, x) :: h)
      else (s1, [(e, o, x)])
  end.
End Dispatcher.
