(* Specification vocabulary for SegmentFetcher. *)
From Coq Require Import ZArith.
From Verif Require Import Base M_Name M_Packet M_Rtt M_Fetcher.
Open Scope N_scope.

(* the segment number that the name of a Data ends with *)
Definition segno (dconv : convention) (d : data) : option N :=
  match rev (n_comps (d_name d)) with
  | c :: _ => if isKind dconv KSegment c then match toKind dconv KSegment c with Ok n => Some n | Err _ => None end else None
  | [] => None
  end.
(* the segment number in the FinalBlockId of a Data *)
Definition finalno (dconv : convention) (d : data) : option N :=
  match mi_final (d_meta d) with
  | Some c => match toKind dconv KSegment c with Ok n => Some n | Err _ => None end
  | None => None
  end.
(* the Data validated so far, in order *)
Fixpoint validated (l : list fobs) : list data :=
  match l with [] => [] | OValidated d :: l' => d :: validated l' | _ :: l' => validated l' end.
(* the most recent FinalBlockId *)
Fixpoint last_final (dconv : convention) (l : list data) : option N :=
  match l with
  | [] => None
  | d :: l' => match last_final dconv l' with Some n => Some n | None => finalno dconv d end
  end.
(* the buffers passed to onInOrderData, in order *)
Fixpoint delivered (l : list fobs) : list bytes :=
  match l with [] => [] | OInOrder b :: l' => b :: delivered l' | _ :: l' => delivered l' end.
(* Data with the same segment number have contents of the same size (there is one version of the object) *)
Definition same_sizes (dconv : convention) (l : list data) : Prop :=
  forall d d', In d l -> In d' l -> segno dconv d = segno dconv d' -> nlen (c_val (d_content d)) = nlen (c_val (d_content d')).
(* the signals that end a fetch *)
Definition terminal (ob : fobs) : bool := match ob with OComplete _ | OInOrderComplete | OError _ => true | _ => false end.
(* the signals from whose handlers stop() may be called without further effect *)
Definition may_stop (ob : fobs) : bool := match ob with OReceived _ => true | _ => terminal ob end.

(* What C45 says of each signal, given what was observed before it.
   segment_of dconv a i c: c is the content of a Data with segment number i whose validation succeeded. *)
Definition segment_of (dconv : convention) (a : list fobs) (i : N) (c : bytes) : Prop :=
  exists d, In d (validated a) /\ segno dconv d = Some i /\ c_val (d_content d) = c.
Definition signal_ok (dconv : convention) (a : list fobs) (t : fobs) : Prop :=
  match t with
  | OInOrder b => segment_of dconv a (nlen (delivered a)) b
  | OComplete b => exists f cs, last_final dconv (validated a) = Some f /\ nlen cs = f + 1 /\ b = concat cs /\
                     forall i c, nth_error cs i = Some c -> segment_of dconv a (N.of_nat i) c
  | OInOrderComplete => exists f, last_final dconv (validated a) = Some f /\ f < nlen (delivered a)
  | _ => True
  end.
Definition small_finals (dconv : convention) (l : list data) : Prop := forall d f, In d l -> finalno dconv d = Some f -> f < 2 ^ 63 - 1.
