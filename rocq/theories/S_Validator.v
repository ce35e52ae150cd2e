(* Vocabulary for C49 and C50 *)
From Verif Require Import Base M_Name S_Name M_Ims S_Ims M_CertCache S_CertCache M_Anchors S_Anchors M_Validator.
From Coq Require Import ZArith.
Open Scope Z_scope.

(* the calls during which the validator looks for certificates, with what they find outside *)
Definition looks (e : vevent) : option venv := match e with VStart en _ | VData en _ _ _ | VTimeout en _ | VWake en _ => Some en | _ => None end.
(* the history of the trust anchors (S_Anchors) in a history of the validator, latest call first in both *)
Definition any_q : qint := mkQ [] true false.
Definition anchor_history (h : list vevent) : list taop :=
  flat_map (fun e => match e with VAnch o => [o] | _ => match looks e with Some en => [TAFindI (en_steady en) (en_disk en) (en_ord en) any_q] | None => [] end end) h.
(* c is a trust anchor at the latest call of h: loaded since the last resetAnchors, in a static group, or in a dynamic group reloaded within its period *)
Definition anchored (h : list vevent) (en : venv) (c : cert) : Prop :=
  source (anchor_history h) c /\ ((exists i, static_in (anchor_history h) i (ct_name c)) \/ exists i, dynamic_in (anchor_history h) (en_steady en) i (ct_name c)).
Definition valid_at (t : Z) (c : cert) : Prop := exists nb na, ct_period c = Some (nb, na) /\ nb <= t <= na.
(* the policy allowed certificate c, valid at that time, to be used, provided it is signed by a certificate that satisfies q *)
Definition approved (h : list vevent) (c : cert) (q : qint) : Prop :=
  exists e en chain rq, In e h /\ looks e = Some en /\ en_pol en (VCert c) chain = PARequest rq /\ cq_int rq = q /\ valid_at (en_sys en) c.

Section Trust.
Variable verify : vitem -> option cert -> bool.
(* linked h c: at the latest call of h, c is signed by a trusted certificate which the policy allows as its issuer.
   trust h c: at the latest call of h, c may serve as issuer: it is a trust anchor, or a certificate verified earlier and not expired, or is linked to one.
   verified h c: c was linked to a trusted certificate at some call of h, or declared verified by the application, since the last resetVerifiedCertificates *)
Inductive linked : list vevent -> cert -> Prop :=
| L_signed h c t q : trust h t -> verify (VCert c) (Some t) = true -> approved h c q -> q_accepts q (ct_pk t) -> linked h c
with trust : list vevent -> cert -> Prop :=
| T_anchor e h en c : looks e = Some en -> anchored (e :: h) en c -> trust (e :: h) c
| T_verified e h en c na : looks e = Some en -> verified h c -> ct_notAfter c = Some na -> en_sys en <= na -> trust (e :: h) c
| T_linked h c : linked h c -> trust h c
with verified : list vevent -> cert -> Prop :=
| V_linked h c : linked h c -> verified h c
| V_user en h c : verified (VCacheVerified en c :: h) c
| V_kept e h c : verified h c -> e <> VResetVerified -> verified (e :: h) c.
(* why packet p, for whose signer the policy asked by q, is valid at the latest call of h: it is signed by a trusted certificate that satisfies q; or it
   has a correct digest signature, and the policy asked for the name reserved for digest signatures (here or for a certificate) *)
Definition succeeded (h : list vevent) (p : vpkt) (q : qint) : Prop :=
  (exists t, trust h t /\ q_accepts q (ct_pk t) /\ verify (VPkt p) (Some t) = true) \/
  (verify (VPkt p) None = true /\ (q_name q = digestIdentity \/ exists c q', approved h c q' /\ q_name q' = digestIdentity)).
(* why validation i, of the packet given when it was started, succeeded at the latest call of h *)
Definition good (h : list vevent) (i : N) : Prop :=
  exists h2 en p h1, h = h2 ++ VStart en p :: h1 /\ nlen (filter (fun e => match e with VStart _ _ => true | _ => false end) h1) = i /\ (vp_isInterest p = true -> vp_sigOk p = true) /\
    ((en_pol en (VPkt p) [] = PABypass /\ h2 = []) \/ exists rq, en_pol en (VPkt p) [] = PARequest rq /\ succeeded h p (cq_int rq)).
End Trust.
(* an event that loads, removes or clears a trust anchor named n *)
Definition disturbs (n : list key) (e : vevent) : Prop := exists o, In o (anchor_history [e]) /\ touches n o.

(* the number of validations started *)
Definition is_start (e : vevent) : bool := match e with VStart _ _ => true | _ => false end.
Definition started (l : list vevent) : N := nlen (filter is_start l).
(* the outputs that concern validation i *)
Definition about (i : N) (o : vout) : bool := match o with OVerdict k _ | OInterest k _ _ _ | OWait k _ => (k =? i)%N | OThrow _ => false end.
Definition is_verdict (i : N) (o : vout) : bool := match o with OVerdict k _ => (k =? i)%N | _ => false end.
Definition is_interest (i : N) (answered : bool) (o : vout) : bool := match o with OInterest k _ _ a => (k =? i)%N && Bool.eqb a answered | _ => false end.
Definition is_wait (i : N) (o : vout) : bool := match o with OWait k _ => (k =? i)%N | _ => false end.
Definition number (f : vout -> bool) (outs : list (list vout)) : N := nlen (filter f (concat outs)).
(* what the validator waits for, as seen from its outputs: the reply to the last Interest (with callbacks), or the end of the last delay *)
Definition awaiting (i : N) (outs : list (list vout)) (e : vevent) : Prop :=
  exists pre o post, concat outs = pre ++ o :: post /\ about i o = true /\ (forall x, In x post -> about i x = false) /\
  match o, e with
  | OInterest _ q _ true, VData _ k pk _ => k = i /\ q_matches q pk = true
  | OInterest _ _ _ true, VNack k | OInterest _ _ _ true, VTimeout _ k => k = i
  | OWait _ _, VWake _ k => k = i
  | _, _ => False
  end.
(* validation i waits: its last output is an Interest with callbacks, or a delay *)
Definition waits (i : N) (outs : list (list vout)) : Prop :=
  exists pre o post, concat outs = pre ++ o :: post /\ about i o = true /\ (forall x, In x post -> about i x = false) /\ match o with OInterest _ _ _ a => a = true | OWait _ _ => True | _ => False end.
(* the verdict of validation i was its last output *)
Definition concluded (i : N) (outs : list (list vout)) : Prop :=
  exists pre v post, concat outs = pre ++ OVerdict i v :: post /\ (forall x, In x pre -> is_verdict i x = false) /\ (forall x, In x post -> about i x = false).
(* the policy allows at most r retries per certificate *)
Definition retries (r : Z) (e : vevent) : Prop := forall en it chain rq, looks e = Some en -> en_pol en it chain = PARequest rq -> cq_left rq <= r.
(* clocks: steady clock not before its epoch; no 64-bit overflow with refresh periods up to p and the cache lifetimes *)
Definition steady (e : vevent) : Prop := match e with VAnch o => clocked o | _ => forall en, looks e = Some en -> 0 <= en_steady en end.
Definition in_range (p : Z) (e : vevent) : Prop :=
  match e with
  | VAnch o => fits p o
  | VCacheVerified en _ => - 2 ^ 63 <= en_sys en /\ en_sys en + hour < 2 ^ 63
  | _ => forall en, looks e = Some en -> 0 <= en_steady en /\ en_steady en + p < 2 ^ 63 /\ - 2 ^ 63 <= en_sys en /\ en_sys en + hour < 2 ^ 63
  end.
