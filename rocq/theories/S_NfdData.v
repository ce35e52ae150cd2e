(* Specification vocabulary for NFD's datasets (NFD management protocol) and control responses. *)
From Coq Require Import ZArith Permutation.
From Verif Require Import Base M_Tlv S_Tlv M_Name S_Name M_Control S_Control M_NfdData.

(* the classes of the library *)
Inductive dclass := ChannelStatus | StrategyChoice | CsInfo | FaceEventNotification | FaceQueryFilter | FaceStatus
  | NextHopRecord | FibEntry | Route | RibEntry | ForwarderStatus.
Definition class (c : dclass) : dtype :=
  match c with
  | ChannelStatus => tyChannelStatus | StrategyChoice => tyStrategyChoice | CsInfo => tyCsInfo | FaceEventNotification => tyFaceEventNotification
  | FaceQueryFilter => tyFaceQueryFilter | FaceStatus => tyFaceStatus | NextHopRecord => tyNextHopRecord | FibEntry => tyFibEntry
  | Route => tyRoute | RibEntry => tyRibEntry | ForwarderStatus => tyForwarderStatus
  end.

(* the protocol: the TLV-TYPE of each element and the fields in it, Required or Optional.  Int: a NonNegativeInteger below the limit;
   Flags: bits, those above are ignored; Duration; Stamp: milliseconds since the epoch; Text; NonEmpty text; NameOf; Nested: an element with a Name in it *)
Inductive shape := Int (limit : N) | Flags (bits : N) | Duration | Stamp | Text | NonEmpty | NameOf | Nested.
Inductive field := Required (number : N) (s : shape) | Optional (number : N) (s : shape).
Definition u64 : shape := Int (2 ^ 64).
Definition octet : shape := Int (2 ^ 8).
Definition hop_layout : list field := [Required 105 u64; Required 106 u64].
Definition route_layout : list field := [Required 105 u64; Required 111 (Int (2 ^ 16)); Required 106 u64; Required 108 u64; Optional 109 Duration].
Definition number (c : dclass) : N :=
  match c with
  | ChannelStatus => 130 | StrategyChoice | CsInfo | FaceStatus | FibEntry | RibEntry => 128 | FaceEventNotification => 192 | FaceQueryFilter => 150
  | NextHopRecord | Route => 129 | ForwarderStatus => 21
  end.
Definition layout (c : dclass) : list field :=
  match c with
  | ChannelStatus => [Required 129 Text]
  | StrategyChoice => [Required 7 NameOf; Required 107 Nested]
  | CsInfo => [Required 131 u64; Required 108 (Flags 2); Required 135 u64; Required 129 u64; Required 130 u64]
  | FaceEventNotification => [Required 193 octet; Required 105 u64; Required 114 Text; Required 129 Text; Required 132 octet; Required 133 octet; Required 134 octet; Required 108 u64]
  | FaceQueryFilter => [Optional 105 u64; Optional 131 NonEmpty; Optional 114 NonEmpty; Optional 129 NonEmpty; Optional 132 octet; Optional 133 octet; Optional 134 octet]
  | FaceStatus => [Required 105 u64; Required 114 Text; Required 129 Text; Optional 109 Duration; Required 132 octet; Required 133 octet; Required 134 octet;
                   Optional 135 Duration; Optional 136 u64; Optional 137 u64; Required 144 u64; Required 145 u64; Required 151 u64; Required 146 u64;
                   Required 147 u64; Required 152 u64; Required 148 u64; Required 149 u64; Required 108 u64]
  | NextHopRecord => hop_layout
  | Route => route_layout
  | FibEntry | RibEntry => [Required 7 NameOf]
  | ForwarderStatus => [Required 128 Text; Required 129 Stamp; Required 130 Stamp; Required 131 u64; Required 132 u64; Required 133 u64; Required 134 u64; Required 135 u64;
                        Required 144 u64; Required 145 u64; Required 151 u64; Required 146 u64; Required 147 u64; Required 152 u64; Required 153 u64; Required 154 u64]
  end.
(* the elements of type 129 that follow the fields of an entry *)
Definition records (c : dclass) : option (list field) :=
  match c with FibEntry => Some hop_layout | RibEntry => Some route_layout | _ => None end.

(* values a field can be given: what its C++ type can hold *)
Definition int64 (z : Z) : Prop := (- 2 ^ 63 <= z < 2 ^ 63)%Z.
Definition holds (s : shape) (v : cval) : Prop :=
  match s, v with
  | Int l, VNum n => n < l
  | Flags b, VNum n => n < 2 ^ b
  | (Duration | Stamp), VTime z => int64 z
  | (Text | NonEmpty), VStr _ => True
  | (NameOf | Nested), VName n => Forall ctype_ok (n_comps n)
  | _, _ => False
  end.
Definition field_shape (f : field) : shape := match f with Required _ s | Optional _ s => s end.
Definition is_optional (f : field) : bool := match f with Required _ _ => false | Optional _ _ => true end.
(* a record: a value for each required field, and some optional ones *)
Inductive record_ok : list field -> vals -> Prop :=
  | ro_nil : record_ok [] []
  | ro_some : forall f l v vs, holds (field_shape f) v -> record_ok l vs -> record_ok (f :: l) (Some v :: vs)
  | ro_none : forall n s l vs, record_ok l vs -> record_ok (Optional n s :: l) (None :: vs).

(* d is a TLV-VALUE that says v.  Durations are sent modulo 2^64; time points (in nanoseconds) are cut to milliseconds. *)
Definition says (s : shape) (v : cval) (d : bytes) : Prop :=
  match s, v with
  | (Int _ | Flags _), VNum n => is_nni n d
  | Duration, VTime z => exists n, is_nni n d /\ ((Z.of_N n - z) mod 2 ^ 64 = 0)%Z
  | Stamp, VTime z => exists n ms, is_nni n d /\ ((Z.of_N n - ms) mod 2 ^ 64 = 0)%Z /\ (Z.abs (ms * 1000000) <= Z.abs z < Z.abs (ms * 1000000) + 1000000)%Z /\ (0 <= ms * z)%Z
  | (Text | NonEmpty), VStr s => d = s
  | NameOf, VName n => is_tlv_seq (nkey n) d
  | Nested, VName n => exists x, is_tlv_seq (nkey n) x /\ is_tlv 7 x d
  | _, _ => False
  end.
(* w is the sequence of the elements of the fields that are present, in order *)
Inductive written : list field -> vals -> bytes -> Prop :=
  | wr_nil : written [] [] []
  | wr_required : forall t s l v vs d w ws, says s v d -> is_tlv t d w -> written l vs ws -> written (Required t s :: l) (Some v :: vs) (w ++ ws)
  | wr_optional : forall t s l v vs d w ws, says s v d -> is_tlv t d w -> written l vs ws -> written (Optional t s :: l) (Some v :: vs) (w ++ ws)
  | wr_absent : forall t s l vs ws, written l vs ws -> written (Optional t s :: l) (None :: vs) ws.
Inductive records_written (l : list field) : list vals -> bytes -> Prop :=
  | rw_nil : records_written l [] []
  | rw_cons : forall vs d w r ws, written l vs d -> is_tlv 129 d w -> records_written l r ws -> records_written l (vs :: r) (w ++ ws).
Definition entry_written (c : dclass) (o : dobj) (d : bytes) : Prop :=
  exists a b, d = a ++ b /\ written (layout c) (do_vals o) a /\
    match records c with Some l => records_written l (do_subs o) b | None => b = [] end.

(* v is what a TLV-VALUE says when it is read *)
Definition hears (s : shape) (v : option cval) (d : bytes) : Prop :=
  match s, v with
  | Int l, Some (VNum n) => is_nni n d /\ n < l
  | Flags b, Some (VNum n) => exists m, is_nni m d /\ n = m mod 2 ^ b
  | Duration, Some (VTime z) => int64 z /\ exists n, is_nni n d /\ ((Z.of_N n - z) mod 2 ^ 64 = 0)%Z
  | Stamp, Some (VTime z) => int64 z /\ exists n ms, is_nni n d /\ int64 ms /\ ((Z.of_N n - ms) mod 2 ^ 64 = 0)%Z /\ z = (ms * 1000000)%Z
  | Text, Some (VStr s) => d = s
  | NonEmpty, Some (VStr s) => d = s /\ s <> []
  | NonEmpty, None => d = []
  | NameOf, Some (VName n) => is_tlv_seq (nkey n) d
  | Nested, Some (VName n) => exists x d1 l rest, d = d1 ++ rest /\ is_tlv_seq (nkey n) x /\ is_tlv 7 x d1 /\ is_tlv_seq l rest   (* the rest is ignored *)
  | _, _ => False
  end.
(* es starts with the fields, in order, and continues with rest *)
Inductive heard : list field -> list (N * bytes) -> vals -> list (N * bytes) -> Prop :=
  | he_nil : forall es, heard [] es [] es
  | he_required : forall t s l d es v vs rest, hears s v d -> heard l es vs rest -> heard (Required t s :: l) ((t, d) :: es) (v :: vs) rest
  | he_optional : forall t s l d es v vs rest, hears s v d -> heard l es vs rest -> heard (Optional t s :: l) ((t, d) :: es) (v :: vs) rest
  | he_absent : forall t s l es vs rest, (forall d es', es <> (t, d) :: es') -> heard l es vs rest -> heard (Optional t s :: l) es (None :: vs) rest.
Definition record_heard (l : list field) (vs : vals) (e : N * bytes) : Prop :=
  fst e = 129 /\ exists es rest, is_tlv_seq es (snd e) /\ heard l es vs rest.
(* d is the value of an entry whose fields have these values: what follows is ignored, except in FibEntry and RibEntry *)
Definition entry_heard (c : dclass) (vs : vals) (subs : list vals) (d : bytes) : Prop :=
  exists es rest, is_tlv_seq es d /\ heard (layout c) es vs rest /\
    match records c with Some l => Forall2 (record_heard l) subs rest | None => subs = [] end.

(* the same values, names up to representation, time points up to the millisecond *)
Definition same_val (s : shape) (a b : option cval) : Prop :=
  match s, a, b with
  | Stamp, Some (VTime y), Some (VTime z) => Z.quot y 1000000 = Z.quot z 1000000
  | _, _, _ => val_eq a b
  end.
Inductive same_vals : list field -> vals -> vals -> Prop :=
  | sv_nil : same_vals [] [] []
  | sv_cons : forall f l a b x y, same_val (field_shape f) a b -> same_vals l x y -> same_vals (f :: l) (a :: x) (b :: y).
Definition same_entry (c : dclass) (a b : dobj) : Prop :=
  same_vals (layout c) (do_vals a) (do_vals b) /\
  match records c with Some l => Forall2 (same_vals l) (do_subs a) (do_subs b) | None => True end.

(* what an operation may be given *)
Definition op_ok (c : dclass) (o : dop) : Prop :=
  match o with
  | DSet i v => exists f, nth_error (layout c) i = Some f /\ holds (field_shape f) v
  | DAddSub vs => exists l, records c = Some l /\ record_ok l vs
  | DDecode e => exists w, blockFromWire w = Ok e     (* any element *)
  | _ => True
  end.

(* what the getters of a Route report: an absent ExpirationPeriod as the largest duration *)
Definition route_reported (vs : vals) : vals :=
  match vs with [a; b; c; d; None] => [a; b; c; d; Some (VTime (2 ^ 63 - 1))] | _ => vs end.
Definition reported (c : dclass) (vs : vals) : vals := match c with Route => route_reported vs | _ => vs end.
Definition record_reported (c : dclass) (vs : vals) : vals := match c with RibEntry => route_reported vs | _ => vs end.
(* equal objects: the same fields; for entries, the same records in some order *)
Definition equal_entry (c : dclass) (a b : dobj) : Prop :=
  Forall2 val_eq (reported c (do_vals a)) (reported c (do_vals b)) /\
  match records c with
  | None => True
  | Some _ => exists p, Permutation (do_subs b) p /\ Forall2 (fun x y => Forall2 val_eq (record_reported c x) (record_reported c y)) (do_subs a) p
  end.

(* a dataset: a sequence of entries *)
Definition dataset_heard (c : dclass) (l : list dobj) (w : bytes) : Prop :=
  exists es, is_tlv_seq es w /\ Forall2 (fun o e => fst e = number c /\ entry_heard c (do_vals o) (do_subs o) (snd e)) l es.
(* an object made by a history, and its encoding *)
Definition made (c : dclass) (o : dobj) : Prop := exists l, Forall (op_ok c) l /\ do_run (class c) l (do_new (class c)) = Some o.

(* a control response says: StatusCode, StatusText and, if there is one, the body *)
Definition response_written (code : N) (text : bytes) (body : option elem) (d : bytes) : Prop :=
  exists n a b, is_nni code n /\ is_tlv 102 n a /\ is_tlv 103 text b /\ d = a ++ b ++ match body with Some e => e_wire e | None => [] end.
Definition response_heard (c : cresp) (d : bytes) : Prop :=
  exists n rest, is_tlv_seq ((102, n) :: (103, cr_text c) :: rest) d /\ is_nni (cr_code c) n /\ cr_code c < 2 ^ 32 /\
    match rest with [] => cr_body c = None | x :: _ => exists e, cr_body c = Some e /\ (e_type e, e_val e) = x end.
Definition crop_ok (o : crop) : Prop :=
  match o with
  | CrCode n => n < 2 ^ 32
  | CrBody b => exists w, blockFromWire w = Ok b
  | CrDecode e => exists w, blockFromWire w = Ok e
  | _ => True
  end.

(* what a getter returns after the setter of field i was called with v: an empty string unsets a field of FaceQueryFilter, and the largest
   duration unsets the ExpirationPeriod of a Route *)
Definition after_set (c : dclass) (i : nat) (v : cval) : option cval :=
  match c, i, v with
  | FaceQueryFilter, _, VStr [] => None
  | Route, 4%nat, VTime z => if (z =? 2 ^ 63 - 1)%Z then None else Some v
  | _, _, _ => Some v
  end.
(* the operations that change an object *)
Definition changes (o : dop) : bool := match o with DSet _ _ | DUnset _ | DAddSub _ | DClearSubs => true | _ => false end.
Definition cr_changes (o : crop) : bool := match o with CrCode _ | CrText _ | CrBody _ => true | _ => false end.
