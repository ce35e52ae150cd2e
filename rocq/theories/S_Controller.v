(* Vocabulary of the statements about Controller. *)
From Verif Require Import Base S_Tlv M_Tlv M_Str M_Name M_Control S_Control M_NfdData S_NfdData M_Controller.
Open Scope N_scope.
Open Scope list_scope.

(* the Content holds a control response *)
Definition responds (content : elem) (r : cresp) : Prop := exists e, blockFromWire (e_val content) = Ok e /\ cr_decode e = Ok r.
(* the parameters of a successful response to a command *)
Definition proper (c : command) (p : cparams) : Prop := accepts (fst (response_fields c)) (snd (response_fields c)) p /\ response_cond c p.
(* the response succeeded and has proper parameters in its body *)
Definition succeeds (c : command) (r : cresp) (p : cparams) : Prop := cr_code r < 400 /\ exists b, cr_body r = Some b /\ cp_decode b = Ok p /\ proper c p.

(* everything that was done during a history *)
Definition outs (h : list (cevent * list cout)) : list cout := flat_map snd h.
(* the reports for one command, or one dataset *)
Definition reports (id : nat) (o : list cout) : list report := flat_map (fun x => match x with OReport i r => if Nat.eqb i id then [r] else [] | _ => [] end) o.
Definition dreports (id : nat) (o : list cout) : list (option N) := flat_map (fun x => match x with ODataset i r => if Nat.eqb i id then [r] else [] | _ => [] end) o.
(* why a command is reported like this *)
Definition answers (before : list (cevent * list cout)) (e : cevent) (id : nat) (c : command) (r : report) : Prop :=
  match e with
  | EvNack i _ _ => i = id /\ r = CFail 10800 None
  | EvTimeout i _ _ => i = id /\ r = CFail 10060 None
  | EvValidated i true _ _ => i = id /\ exists content, In (OValidate id content) (outs before) /\ r = ct_response c content
  | EvValidated i false _ _ => i = id /\ r = CFail 10021 None
  | _ => False
  end.
Definition goes_to (k : cbs) (r : report) : Prop := match r with CSuccess _ => cb_success k = true | CFail _ _ => cb_failure k = true | CThrow _ => False end.
(* the code for an error of a SegmentFetcher: a timeout, a missing segment number, a failed validation, a Nack, a bad FinalBlockId *)
Definition dataset_code (code : N) : option N := nth_error [10060; 500; 10021; 10800; 500] (N.to_nat (code - 1)).
Definition danswers (e : cevent) (id : nat) (r : option N) : Prop :=
  match e with
  | EvComplete i true _ _ => i = id /\ r = None
  | EvComplete i false _ _ => i = id /\ r = Some 500
  | EvError i code _ _ => i = id /\ 1 <= code <= 5 /\ r = dataset_code code
  | _ => False
  end.
Definition dgoes_to (k : cbs) (r : option N) : Prop := match r with None => cb_success k = true | Some _ => cb_failure k = true end.
(* no callback for a dataset throws *)
Definition calm (e : cevent) : Prop := match e with EvComplete _ _ _ t | EvError _ _ _ t => t = false | _ => True end.
(* the errors are those that a SegmentFetcher has *)
Definition known (e : cevent) : Prop := match e with EvError _ code _ _ => 1 <= code <= 5 | _ => True end.
(* the Controller is destroyed by a call or in a callback *)
Definition acts_of (e : cevent) : list act :=
  match e with EvCall a => [a] | EvData _ _ => [] | EvNack _ l _ | EvTimeout _ l _ | EvValidated _ _ l _ | EvComplete _ _ l _ | EvError _ _ l _ => l end.
(* not in a callback for a dataset *)
Definition outside (e : cevent) : Prop := match e with EvComplete _ _ l _ | EvError _ _ l _ => ~ In ADestroy l | _ => True end.
