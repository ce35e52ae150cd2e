(* Model of mgmt/nfd/controller.{hpp,cpp}: the client of the management protocol.
   A command is the Interest that the Face has expressed and the callbacks it captured; a dataset retrieval is the SegmentFetcher that is running.
   The Face calls one of the three callbacks of a command, once (C38); the Validator calls one of its two, once (C49); a SegmentFetcher that was stopped
   emits nothing (C46).  Building and signing the request (createRequest: C60; InterestSigner: C53) either throws or expresses the Interest.
   The texts of the responses that the Controller makes itself are not modelled; what is done to a destroyed Controller by its user is not either. *)
From Coq Require Import ZArith.
From Verif Require Import Base M_Tlv M_Str M_Name M_Control M_NfdData.
Open Scope N_scope.
Open Scope list_scope.

(* controller.hpp:170-182 *)
Definition ERROR_LBOUND : N := 400.
Definition ERROR_SERVER : N := 500.
Definition ERROR_TIMEOUT : N := 10060.
Definition ERROR_NACK : N := 10800.
Definition ERROR_VALIDATION : N := 10021.

(* what is reported for a command: CommandSuccessCallback with the parameters; CommandFailureCallback with a ControlResponse of that code, which is the one
   received if there is one; or an exception that goes through *)
Inductive report := CSuccess (p : cparams) | CFail (code : N) (received : option cresp) | CThrow (x : err).
(* the catch clauses of processValidatedCommandResponse: one class of exceptions, reported as ERROR_SERVER *)
Definition caught (want x : err) : report :=
  match want, x with
  | ETlv, ETlv | EInvalidArg, EInvalidArg => CFail ERROR_SERVER None
  | _, _ => CThrow x
  end.
(* controller.cpp:88-131 processValidatedCommandResponse, with checkResponse = Command::validateResponse (controller.hpp:101-105).
   The body of a response without one is an invalid Block, whose type is not ControlParameters. *)
Definition ct_response (c : command) (content : elem) : report :=
  match (let! b := blockFromValue content in cr_decode b) with
  | Err x => caught ETlv x
  | Ok r =>
      if ERROR_LBOUND <=? cr_code r then CFail (cr_code r) (Some r)
      else match match cr_body r with Some b => cp_decode b | None => Err ETlv end with
           | Err x => caught ETlv x
           | Ok p => match cmd_validateResponse c p with
                     | Some x => caught EInvalidArg x
                     | None => CSuccess p
                     end
           end
  end.

(* which of the two callbacks are not empty *)
Record cbs := mkCbs { cb_success : bool; cb_failure : bool }.
(* ct_pending: commands whose Interest is pending; ct_validating: whose Data is being validated, with its Content;
   ct_running: fetchers that are not stopped; ct_set: m_fetchers *)
Record ctl := mkCtl { ct_alive : bool; ct_pending : list (nat * command * cbs); ct_validating : list (nat * command * cbs * elem);
                      ct_running : list (nat * cbs); ct_set : list nat; ct_next : nat }.
(* controller.cpp:30-36 *)
Definition ct_new : ctl := mkCtl true [] [] [] [] 0.

(* start: the request could be built and signed, or not; fetch; the destructor *)
Inductive act := AStart (c : command) (k : cbs) (ok : bool) | AFetch (k : cbs) | ADestroy.
(* what happens: a call; an answer to the Interest of a command; a result of the validator; a signal of a fetcher.
   acts: what the callback does, if one is called; throws: it ends with an exception *)
Inductive cevent :=
| EvCall (a : act)
| EvData (id : nat) (content : elem)
| EvNack (id : nat) (acts : list act) (throws : bool)
| EvTimeout (id : nat) (acts : list act) (throws : bool)
| EvValidated (id : nat) (ok : bool) (acts : list act) (throws : bool)
| EvComplete (id : nat) (parses : bool) (acts : list act) (throws : bool)
| EvError (id : nat) (code : N) (acts : list act) (throws : bool).
(* OValidate: the Data goes to the validator.  ODataset id None: the dataset's success callback; ODataset id (Some code): the failure callback *)
Inductive cout := OSend (id : nat) (c : command) (k : cbs) | OFetch (id : nat) (k : cbs) | OValidate (id : nat) (content : elem) | OReport (id : nat) (r : report) | ODataset (id : nat) (code : option N) | OUb.

Definition is_id {A} (id : nat) (x : nat * A) : bool := Nat.eqb (fst x) id.
(* controller.hpp:92-106 start with controller.cpp:45-69; controller.cpp:133-153 fetchDataset; controller.cpp:38-43 *)
Definition ct_act (a : act) (s : ctl) : ctl * list cout :=
  if negb (ct_alive s) then (s, [])
  else match a with
       | AStart c k ok =>
           if ok then (mkCtl true ((ct_next s, c, k) :: ct_pending s) (ct_validating s) (ct_running s) (ct_set s) (S (ct_next s)), [OSend (ct_next s) c k])
           else (s, [])
       | AFetch k => (mkCtl true (ct_pending s) (ct_validating s) ((ct_next s, k) :: ct_running s) (ct_next s :: ct_set s) (S (ct_next s)), [OFetch (ct_next s) k])
       | ADestroy => (mkCtl false (ct_pending s) (ct_validating s) (filter (fun x => negb (existsb (Nat.eqb (fst x)) (ct_set s))) (ct_running s)) [] (ct_next s), [])
       end.
Fixpoint ct_acts (l : list act) (s : ctl) : ctl * list cout :=
  match l with [] => (s, []) | a :: l' => let (s1, o1) := ct_act a s in let (s2, o2) := ct_acts l' s1 in (s2, o1 ++ o2) end.
(* a callback, if it is not empty *)
Definition ct_call (present : bool) (o : cout) (acts : list act) (s : ctl) : ctl * list cout :=
  if present then let (s1, o1) := ct_acts acts s in (s1, o :: o1) else (s, []).
(* the report of a command goes to one of the callbacks; an exception goes through *)
Definition ct_report (id : nat) (k : cbs) (r : report) (acts : list act) (s : ctl) : ctl * list cout :=
  match r with
  | CSuccess _ => ct_call (cb_success k) (OReport id r) acts s
  | CFail _ _ => ct_call (cb_failure k) (OReport id r) acts s
  | CThrow _ => (s, [OReport id r])
  end.
(* controller.cpp:155-181 processDatasetFetchError; SegmentFetcher::ErrorCode: segment-fetcher.hpp:132-143 *)
Definition ct_errorCode (code : N) : option N :=
  if code =? 1 then Some ERROR_TIMEOUT
  else if (code =? 2) || (code =? 5) then Some ERROR_SERVER
  else if code =? 3 then Some ERROR_VALIDATION
  else if code =? 4 then Some ERROR_NACK
  else None.
(* the last slot of onComplete and onError, which erases the fetcher (controller.cpp:151-152), and then SegmentFetcher::stop (segment-fetcher.cpp:429, 469).
   The slot holds a pointer to the Controller. *)
Definition ct_erase (id : nat) (s : ctl) : ctl * list cout :=
  (mkCtl (ct_alive s) (ct_pending s) (ct_validating s) (filter (fun x => negb (is_id id x)) (ct_running s))
     (if ct_alive s then filter (fun x => negb (Nat.eqb x id)) (ct_set s) else ct_set s) (ct_next s),
   if ct_alive s then [] else [OUb]).
(* the slots of a signal: the first one calls back, and if it throws the others are not called and stop is not either *)
Definition ct_emit (id : nat) (present : bool) (o : cout) (acts : list act) (throws : bool) (s : ctl) : ctl * list cout :=
  let (s1, o1) := ct_call present o acts s in
  if present && throws then (s1, o1) else let (s2, o2) := ct_erase id s1 in (s2, o1 ++ o2).
Definition drop_pending (id : nat) (s : ctl) : ctl :=
  mkCtl (ct_alive s) (filter (fun x => negb (is_id id (fst x))) (ct_pending s)) (ct_validating s) (ct_running s) (ct_set s) (ct_next s).

Definition ct_step (e : cevent) (s : ctl) : ctl * list cout :=
  match e with
  | EvCall a => ct_act a s
  (* controller.cpp:56-59, 71-86: m_validator is reached through the Controller *)
  | EvData id content =>
      match find (fun x => is_id id (fst x)) (ct_pending s) with
      | None => (s, [])
      | Some (_, c, k) =>
          let s1 := drop_pending id s in
          if ct_alive s then (mkCtl (ct_alive s1) (ct_pending s1) ((id, c, k, content) :: ct_validating s1) (ct_running s1) (ct_set s1) (ct_next s1), [OValidate id content])
          else (s1, [OUb])
      end
  (* controller.cpp:60-64 *)
  | EvNack id acts _ =>
      match find (fun x => is_id id (fst x)) (ct_pending s) with
      | None => (s, [])
      | Some (_, c, k) => ct_report id k (CFail ERROR_NACK None) acts (drop_pending id s)
      end
  (* controller.cpp:65-68 *)
  | EvTimeout id acts _ =>
      match find (fun x => is_id id (fst x)) (ct_pending s) with
      | None => (s, [])
      | Some (_, c, k) => ct_report id k (CFail ERROR_TIMEOUT None) acts (drop_pending id s)
      end
  (* controller.cpp:77-85 *)
  | EvValidated id ok acts _ =>
      match find (fun x => is_id id (fst (fst x))) (ct_validating s) with
      | None => (s, [])
      | Some (_, c, k, content) =>
          ct_report id k (if ok then ct_response c content else CFail ERROR_VALIDATION None) acts
            (mkCtl (ct_alive s) (ct_pending s) (filter (fun x => negb (is_id id (fst (fst x)))) (ct_validating s)) (ct_running s) (ct_set s) (ct_next s))
      end
  (* controller.hpp:193-217 *)
  | EvComplete id parses acts throws =>
      match find (is_id id) (ct_running s) with
      | None => (s, [])
      | Some (_, k) =>
          if parses then ct_emit id (cb_success k) (ODataset id None) acts throws s
          else ct_emit id (cb_failure k) (ODataset id (Some ERROR_SERVER)) acts throws s
      end
  (* controller.cpp:144-148 *)
  | EvError id code acts throws =>
      match find (is_id id) (ct_running s) with
      | None => (s, [])
      | Some (_, k) =>
          match ct_errorCode code with
          | Some x => ct_emit id (cb_failure k) (ODataset id (Some x)) acts throws s
          | None => ct_emit id false OUb [] false s
          end
      end
  end.
(* a history, with what each event made the Controller do *)
Fixpoint ct_run (l : list cevent) (s : ctl) : ctl * list (cevent * list cout) :=
  match l with
  | [] => (s, [])
  | e :: l' => let (s1, o) := ct_step e s in let (s2, h) := ct_run l' s1 in (s2, (e, o) :: h)
  end.
