(* Model of security/certificate-cache.{hpp,cpp}.  Names are lists of (type, value) as in M_Ims. *)
From Verif Require Import Base M_Tlv M_Str M_Name S_Name M_Ims.
From Coq Require Import ZArith.
Open Scope Z_scope.

(* what the caches, the trust anchors and the validator look at in a Certificate: its name and digest, and the NotBefore and NotAfter of its ValidityPeriod
   in nanoseconds (getValidityPeriod throws if there is none; for periods beyond 64-bit nanoseconds see C54) *)
Record cert := mkCert { ct_pk : pkt; ct_period : option (Z * Z) }.
Definition ct_notAfter (c : cert) : option Z := option_map snd (ct_period c).
Definition ct_name (c : cert) : list key := pk_name (ct_pk c).
(* certificate-cache.hpp:91-110 Entry *)
Record centry := mkCE { ce_cert : cert; ce_removal : Z }.
Definition ce_name (e : centry) : list key := ct_name (ce_cert e).
(* certificate-cache.hpp:126-148: m_certs in the order of its first index, m_certsByTime; m_maxLifetime *)
Record ccache := mkCC { cc_time : list centry; cc_max : Z }.
(* certificate-cache.cpp:28-33 *)
Definition cc_new (maxLifetime : Z) : ccache := mkCC [] maxLifetime.

(* ordered_non_unique insertion by removalTime: after the elements not greater *)
Fixpoint time_insert (e : centry) (l : list centry) : list centry :=
  match l with [] => [e] | x :: l' => if ce_removal e <? ce_removal x then e :: l else x :: time_insert e l' end.
(* the elements in the order of the second index, m_certsByName *)
Fixpoint name_insert (e : centry) (l : list centry) : list centry :=
  match l with [] => [e] | x :: l' => if names_ltb (ce_name e) (ce_name x) then e :: l else x :: name_insert e l' end.
Definition cc_names (s : ccache) : list centry := fold_right name_insert [] (cc_time s).

(* the sum of a time point and a duration, in 64-bit nanoseconds; overflow is undefined *)
Definition tp_add (a b : Z) : res Z := if (-(2 ^ 63) <=? a + b) && (a + b <? 2 ^ 63) then Ok (a + b) else Err EUb.
(* certificate-cache.cpp:35-49; inserting an entry whose name is already there does nothing, the second index being unique *)
Definition cc_insert (now : Z) (c : cert) (s : ccache) : res ccache :=
  match ct_notAfter c with
  | None => Err ETlv
  | Some na =>
      if na <? now then Ok s
      else
        let! m := tp_add now (cc_max s) in
        let removal := Z.min na m in
        if existsb (fun e => names_eqb (ce_name e) (ct_name c)) (cc_time s) then Ok s
        else Ok (mkCC (time_insert (mkCE c removal) (cc_time s)) (cc_max s))
  end.
(* certificate-cache.cpp:51-55 *)
Definition cc_clear (s : ccache) : ccache := mkCC [] (cc_max s).
(* certificate-cache.cpp:91-101 *)
Fixpoint drop_expired (now : Z) (l : list centry) : list centry :=
  match l with [] => [] | x :: l' => if ce_removal x <? now then drop_expired now l' else l end.
Definition cc_refresh (now : Z) (s : ccache) : ccache := mkCC (drop_expired now (cc_time s)) (cc_max s).
(* lower_bound of an index ordered by name *)
Fixpoint lower_name (n : list key) (l : list centry) : list centry :=
  match l with [] => [] | x :: l' => if names_ltb (ce_name x) n then lower_name n l' else l end.
(* certificate-cache.cpp:57-68 *)
Definition cc_findName (now : Z) (n : list key) (s : ccache) : ccache * option cert :=
  let s1 := cc_refresh now s in
  (s1, match lower_name n (cc_names s1) with [] => None | e :: _ => if prefixb n (ce_name e) then Some (ce_cert e) else None end).
(* certificate-cache.cpp:70-89 *)
Fixpoint scan_match (q : qint) (l : list centry) : option cert :=
  match l with
  | [] => None
  | e :: l' => if prefixb (q_name q) (ce_name e) then if q_matches q (ct_pk (ce_cert e)) then Some (ce_cert e) else scan_match q l' else None
  end.
Definition cc_findInterest (now : Z) (q : qint) (s : ccache) : ccache * option cert :=
  let s1 := cc_refresh now s in (s1, scan_match q (lower_name (q_name q) (cc_names s1))).

Inductive ccop := CIns (now : Z) (c : cert) | CClear | CFindN (now : Z) (n : list key) | CFindI (now : Z) (q : qint).
(* an insertion that throws leaves the cache unchanged *)
Definition cc_step (o : ccop) (s : ccache) : ccache * option cert :=
  match o with
  | CIns now c => (match cc_insert now c s with Ok s1 => s1 | Err _ => s end, None)
  | CClear => (cc_clear s, None)
  | CFindN now n => cc_findName now n s
  | CFindI now q => cc_findInterest now q s
  end.
Fixpoint cc_run (l : list ccop) (s : ccache) : ccache :=
  match l with [] => s | o :: l' => cc_run l' (fst (cc_step o s)) end.
