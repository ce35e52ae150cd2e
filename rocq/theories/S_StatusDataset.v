(* Specification vocabulary for status datasets. *)
From Verif Require Import Base M_Name S_Name S_Ims M_StatusDataset.

(* calls with their outcomes: did such a call return normally? *)
Definition did (f : sdop -> bool) (h : list (sdop * option err)) : bool :=
  existsb (fun x => f (fst x) && match snd x with None => true | _ => false end) h.
Definition is_append (o : sdop) : bool := match o with SdAppend _ => true | _ => false end.
Definition is_end (o : sdop) : bool := match o with SdEnd => true | _ => false end.
Definition is_reject (o : sdop) : bool := match o with SdReject _ => true | _ => false end.
Definition is_any (o : sdop) : bool := match o with SdSetPrefix _ _ => false | _ => true end.
(* the octets given to the appends that returned normally, in order *)
Fixpoint appended (h : list (sdop * option err)) : bytes :=
  match h with
  | [] => []
  | (SdAppend bs, None) :: h' => bs ++ appended h'
  | _ :: h' => appended h'
  end.
(* the events are the segments chunks, numbered from i on under the prefix p; the last one is final if fin *)
Fixpoint segments (conv : convention) (p : name) (i : N) (fin : bool) (chunks : list bytes) (evs : list sdev) : Prop :=
  match chunks, evs with
  | [], [] => True
  | ch :: chunks', ev :: evs' =>
      (exists c, fromKind conv KSegment i = Ok c /\
        ev = SdData (nm_append c p) ch (fin && match chunks' with [] => true | _ => false end)) /\
      segments conv p (i + 1) fin chunks' evs'
  | _, _ => False
  end.

(* what each call answers, given the calls before it: append and end refuse once the response was ended or rejected; reject and
   setPrefix once anything was answered; setPrefix also refuses a name that does not extend the Interest's, or is empty, or ends
   with a segment number *)
Definition answers (dconv : convention) (iname : name) (h : list (sdop * option err)) (o : sdop) (r : option err) : Prop :=
  match o with
  | SdAppend _ | SdEnd => r = if did is_end h || did is_reject h then Some ELogic else None
  | SdReject _ => r = if did is_any h then Some ELogic else None
  | SdSetPrefix p clock =>
      if did is_any h then r = Some ELogic
      else (r = None /\ is_prefix (nkey iname) (nkey p) /\ exists f c, n_comps p = f ++ [c] /\ isKind dconv KSegment c = false) \/
           (r = Some EInvalidArg /\ (~ is_prefix (nkey iname) (nkey p) \/ exists f c, n_comps p = f ++ [c] /\ isKind dconv KSegment c = true)) \/
           (r = Some ETlv /\ n_comps p = [])
  end.
