(* Vocabulary for C55 *)
From Verif Require Import Base S_Name M_Ims S_Ims M_CertCache.
From Coq Require Import ZArith.
Open Scope Z_scope.

(* a certificate put in a cache at time t0 may be used at time t: it is before the earlier of its NotAfter and t0 + max *)
Definition good_until (max t0 : Z) (c : cert) (t : Z) : Prop := exists na, ct_notAfter c = Some na /\ t0 <= na /\ t <= na /\ t <= t0 + max.
Definition same_name (c d : cert) : Prop := ct_name c = ct_name d.
(* certificate c, put in at time t0, is held after the history h (the latest operation first): lookups discard what may no longer be used, and an
   insertion does nothing while a certificate of the same name is held *)
Fixpoint cached (max : Z) (h : list ccop) (c : cert) (t0 : Z) : Prop :=
  match h with
  | [] => False
  | CIns t d :: h' => cached max h' c t0 \/ (c = d /\ t0 = t /\ good_until max t c t /\ forall e u, same_name e c -> ~ cached max h' e u)
  | CClear :: _ => False
  | CFindN t _ :: h' | CFindI t _ :: h' => cached max h' c t0 /\ good_until max t0 c t
  end.
(* the first in canonical order of names *)
Definition first_by_name (P : cert -> Prop) (r : option cert) : Prop :=
  match r with Some c => P c /\ (forall d, P d -> d = c \/ names_lt (ct_name c) (ct_name d)) | None => forall d, ~ P d end.
(* the clock readings of a history *)
Definition time_of (o : ccop) : option Z := match o with CIns t _ | CFindN t _ | CFindI t _ => Some t | CClear => None end.
(* no overflow of 64-bit nanoseconds *)
Definition sane (max : Z) (l : list ccop) : Prop := 0 <= max /\ forall o t, In o l -> time_of o = Some t -> - 2 ^ 63 <= t /\ t + max < 2 ^ 63.
