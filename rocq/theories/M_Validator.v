(* Model of security/validator.cpp, validation-state.cpp, certificate-storage.cpp, certificate-fetcher.cpp and the three fetchers.
   Signature verification (verification-helpers.cpp) is a parameter, as are the policy's answers.  Callbacks given by the caller are outputs of the
   model: they are taken to return without calling back into the validator (what they do then is a later event). *)
From Verif Require Import Base M_Tlv M_Str M_Name S_Name M_Ims M_CertCache M_Anchors.
From Coq Require Import ZArith String.
Open Scope list_scope.
Open Scope Z_scope.

(* a packet to validate: Interest or Data, an identifier of its content, its IncomingFaceId tag (0: no tag), and for an Interest whether getSignatureInfo
   decodes *)
Record vpkt := mkVP { vp_isInterest : bool; vp_content : N; vp_face : N; vp_sigOk : bool }.
Inductive vitem := VPkt (p : vpkt) | VCert (c : cert).
(* certificate-request.hpp:33-58; waitAfterNack in milliseconds (its overflow, after more than 40 Nacks, is not modelled) *)
Record creq := mkCQ { cq_int : qint; cq_left : Z; cq_wait : Z }.
Definition newRequest (q : qint) : creq := mkCQ q 3 500.
(* validation-error.hpp:40-62, the codes given by the validator itself; a policy may give any *)
Inductive verr := VE_INVALID_SIGNATURE | VE_MALFORMED_SIGNATURE | VE_LOOP | VE_EXCEEDED_DEPTH | VE_EXPIRED_CERT | VE_CANNOT_RETRIEVE | VE_MALFORMED_CERT
| VE_POLICY_ERROR | VE_IMPLEMENTATION | VE_OTHER (code : N).
Inductive verdict := VSuccess | VFail (e : verr).
(* what checkPolicy does: state->fail; continueValidation(nullptr); continueValidation(request); throw; or nothing at all.  A policy that does more than
   one of these, or defers it to a later time, is not modelled (no policy of the library does) *)
Inductive pans := PAFail (e : verr) | PABypass | PARequest (rq : creq) | PAThrow (e : err) | PANothing.
(* what a call finds outside: the two clocks, the file system, the order of the anchor groups, and the answers of the policy, which may depend on the
   packet or certificate checked and on the chain so far *)
Record venv := mkEn { en_sys : Z; en_steady : Z; en_disk : disk; en_ord : list N; en_pol : vitem -> list cert -> pans }.

(* certificate-storage.hpp: trust anchors, verified certificates, unverified certificates *)
Record store := mkSt { st_anch : anchors; st_ver : ccache; st_unv : ccache }.
(* certificate-storage.cpp:26-30: one hour and five minutes, in nanoseconds *)
Definition hour : Z := 3600 * 1000000000.
Definition fiveMin : Z := 300 * 1000000000.
Definition st_new : store := mkSt ta_empty (cc_new hour) (cc_new fiveMin).
(* certificate-storage.cpp:32-39 *)
Definition findTrusted (en : venv) (s : store) (q : qint) : res (store * option cert) :=
  let! r := ta_findInterest (en_steady en) (en_disk en) (en_ord en) q (st_anch s) in
  match snd r with
  | Some c => Ok (mkSt (fst r) (st_ver s) (st_unv s), Some c)
  | None => let f := cc_findInterest (en_sys en) q (st_ver s) in Ok (mkSt (fst r) (fst f) (st_unv s), snd f)
  end.

(* which fetcher: from the network, direct (with or without infrastructure Interests), offline *)
Inductive fkind := FNetwork | FDirect (only : bool) | FOffline.
Inductive phase := PFetch | PWait.
(* the end of a call: a verdict; a request pending, after expressing Interests (direct: with the NextHopFaceId tag, answered: with callbacks); an exception *)
Inductive vres := RDone (v : verdict) | RPend (chain : list cert) (seen : list (list key)) (rq : creq) (sent : list (bool * bool)) | RThrow (e : err).

Definition digestIdentity : list key := [(8%N, str "localhost"); (8%N, str "identity"); (8%N, str "digest-sha256")].

Section Validator.
Variable verify : vitem -> option cert -> bool. (* verifySignature(packet or certificate, issuer or none) *)
Variable maxDepth : N.
Variable kind : fkind.

(* validation-state.cpp:55-75; the chain starts with the certificate nearest to the trust anchor.  Returns the certificates whose signature was good, and the
   last of them (the trusted one if the chain is empty) unless one was bad *)
Fixpoint verifyChain (t : cert) (chain : list cert) : list cert * option cert :=
  match chain with
  | [] => ([], Some t)
  | c :: chain' => if verify (VCert c) (Some t) then let r := verifyChain c chain' in (c :: fst r, snd r) else ([], None)
  end.
Fixpoint cacheAll (now : Z) (l : list cert) (cc : ccache) : res ccache :=
  match l with [] => Ok cc | c :: l' => let! cc1 := cc_insert now c cc in cacheAll now l' cc1 end.
(* validation-state.cpp:101-113 *)
Definition original (p : vpkt) (c : option cert) : verdict := if verify (VPkt p) c then VSuccess else VFail VE_INVALID_SIGNATURE.
(* validator.cpp:135-152 *)
Definition settle (en : venv) (s : store) (p : vpkt) (chain : list cert) (t : cert) : res (store * vres) :=
  let r := verifyChain t chain in
  let v := match snd r with Some c => original p (Some c) | None => VFail VE_INVALID_SIGNATURE end in
  let! ver := cacheAll (en_sys en) (fst r) (st_ver s) in
  Ok (mkSt (st_anch s) ver (st_unv s), RDone v).

(* certificate-fetcher-from-network.cpp:43-58, certificate-fetcher-direct-fetch.cpp:41-89, certificate-fetcher-offline.cpp:27-33 *)
Definition doFetch (p : vpkt) (chain : list cert) (seen : list (list key)) (rq : creq) : vres :=
  match kind with
  | FNetwork => RPend chain seen rq [(false, true)]
  | FOffline => RDone (VFail VE_CANNOT_RETRIEVE)
  | FDirect only =>
      if (vp_face p =? 0)%N then if only then RDone (VFail VE_CANNOT_RETRIEVE) else RPend chain seen rq [(false, true)]
      else if only then RPend chain seen rq [(true, true)] else RPend chain seen rq [(true, false); (false, true)]
  end.

Section Rec.
Variable request : store -> list cert -> list (list key) -> creq -> res (store * vres).
(* validator.cpp:82-105 *)
Definition validateCert (en : venv) (s : store) (chain : list cert) (seen : list (list key)) (c : cert) : res (store * vres) :=
  match ct_period c with
  | None => Ok (s, RThrow ETlv)
  | Some (nb, na) =>
      if (nb <=? en_sys en) && (en_sys en <=? na) then
        match en_pol en (VCert c) chain with
        | PAFail e => Ok (s, RDone (VFail e))
        | PABypass => Ok (s, RDone (VFail VE_POLICY_ERROR))
        | PARequest rq => request s (c :: chain) seen rq
        | PAThrow e => Ok (s, RThrow e)
        | PANothing => Ok (s, RDone (VFail VE_IMPLEMENTATION))
        end
      else Ok (s, RDone (VFail VE_EXPIRED_CERT))
  end.
(* certificate-fetcher.cpp:60-63: the continuation of a fetch *)
Definition gotCert (en : venv) (s : store) (chain : list cert) (seen : list (list key)) (c : cert) : res (store * vres) :=
  match cc_insert (en_sys en) c (st_unv s) with
  | Ok u => validateCert en (mkSt (st_anch s) (st_ver s) u) chain seen c
  | Err e => if catchable e then Ok (s, RThrow e) else Err e
  end.
(* certificate-fetcher.cpp:47-65; again: called from a retry, when the continuation is that of the first fetch *)
Definition fetch (again : bool) (en : venv) (s : store) (p : vpkt) (chain : list cert) (seen : list (list key)) (rq : creq) : res (store * vres) :=
  let f := cc_findInterest (en_sys en) (cq_int rq) (st_unv s) in
  let s1 := mkSt (st_anch s) (st_ver s) (fst f) in
  match snd f with
  | Some c => if again then gotCert en s1 chain seen c else validateCert en s1 chain seen c
  | None => Ok (s1, doFetch p chain seen rq)
  end.
End Rec.

(* validator.cpp:120-158; fuel bounds the recursion through the cache of unverified certificates *)
Fixpoint request (fuel : nat) (en : venv) (p : vpkt) (s : store) (chain : list cert) (seen : list (list key)) (rq : creq) : res (store * vres) :=
  match fuel with
  | O => Err EFuel
  | S fuel' =>
      if (maxDepth <=? nlen chain)%N then Ok (s, RDone (VFail VE_EXCEEDED_DEPTH))
      else if names_eqb (q_name (cq_int rq)) digestIdentity then Ok (s, RDone (original p None))
      else if existsb (names_eqb (q_name (cq_int rq))) seen then Ok (s, RDone (VFail VE_LOOP))
      else
        let seen1 := q_name (cq_int rq) :: seen in
        let! r := findTrusted en s (cq_int rq) in
        match snd r with
        | Some t => settle en (fst r) p chain t
        | None => fetch (request fuel' en p) false en (fst r) p chain seen1 rq
        end
  end.
Definition fuel0 : nat := S (N.to_nat maxDepth).

(* a validation in progress, waiting for the answer to an Interest or for the delay after a Nack *)
Record vjob := mkVJ { vj_id : N; vj_pkt : vpkt; vj_chain : list cert; vj_seen : list (list key); vj_req : creq; vj_phase : phase }.
Record vstate := mkVS { vs_store : store; vs_jobs : list vjob; vs_next : N }.
Definition vs_new : vstate := mkVS st_new [] 0.
Definition job_find (i : N) (l : list vjob) : option vjob := List.find (fun j => (vj_id j =? i)%N) l.
Definition job_del (i : N) (l : list vjob) : list vjob := filter (fun j => negb (vj_id j =? i)%N) l.

(* outputs: a callback of validation id with a verdict; an Interest expressed for it; a delay before the next attempt; an exception out of the call *)
Inductive vout := OVerdict (i : N) (v : verdict) | OInterest (i : N) (q : qint) (direct answered : bool) | OWait (i : N) (ms : Z) | OThrow (e : err).

(* the effect of the end of a call on validation i, no longer among the jobs.  If an exception leaves the call, or nothing holds the ValidationState any more, its
   destructor reports IMPLEMENTATION_ERROR: validation-state.cpp:93-99 *)
Definition conclude (i : N) (p : vpkt) (jobs : list vjob) (next : N) (r : store * vres) : vstate * list vout :=
  match snd r with
  | RDone v => (mkVS (fst r) jobs next, [OVerdict i v])
  | RPend chain seen rq sent => (mkVS (fst r) (mkVJ i p chain seen rq PFetch :: jobs) next, map (fun x => OInterest i (cq_int rq) (fst x) (snd x)) sent)
  | RThrow e => (mkVS (fst r) jobs next, [OVerdict i (VFail VE_IMPLEMENTATION); OThrow e])
  end.

Inductive vevent :=
| VStart (en : venv) (p : vpkt)
| VData (en : venv) (i : N) (pk : pkt) (oc : option (option (Z * Z))) (* Data with the name and digest pk; None if it is no Certificate, else its validity period *)
| VNack (i : N) | VTimeout (en : venv) (i : N) | VWake (en : venv) (i : N)
| VDrop (i : N) (* the validator, its fetcher or its face goes away *)
| VAnch (o : taop) | VCacheVerified (en : venv) (c : cert) | VResetVerified.

(* validator.cpp:46-79 *)
Definition start (en : venv) (p : vpkt) (s : vstate) : res (vstate * list vout) :=
  let i := vs_next s in let fin r := conclude i p (vs_jobs s) (i + 1)%N r in
  if vp_isInterest p && negb (vp_sigOk p) then Ok (fin (vs_store s, RDone (VFail VE_MALFORMED_SIGNATURE)))
  else match en_pol en (VPkt p) [] with
       | PAFail e => Ok (fin (vs_store s, RDone (VFail e)))
       | PABypass => Ok (fin (vs_store s, RDone VSuccess))
       | PARequest rq => let! r := request fuel0 en p (vs_store s) [] [] rq in Ok (fin r)
       | PAThrow e => Ok (fin (vs_store s, RThrow e))
       | PANothing => Ok (fin (vs_store s, RDone (VFail VE_IMPLEMENTATION)))
       end.
(* the handlers ignore an answer to an Interest that is not outstanding, and Data that does not match it: the face does not deliver those (C37) *)
Definition step (e : vevent) (s : vstate) : res (vstate * list vout) :=
  let on i ph (k : vjob -> (store * vres -> vstate * list vout) -> res (vstate * list vout)) :=
    match job_find i (vs_jobs s) with
    | Some j => if match vj_phase j, ph with PFetch, PFetch | PWait, PWait => true | _, _ => false end
                then k j (conclude i (vj_pkt j) (job_del i (vs_jobs s)) (vs_next s)) else Ok (s, [])
    | None => Ok (s, [])
    end in
  match e with
  | VStart en p => start en p s
  (* certificate-fetcher-from-network.cpp:60-77 *)
  | VData en i pk oc => on i PFetch (fun j fin =>
      if q_matches (cq_int (vj_req j)) pk then
        match oc with
        | None => Ok (fin (vs_store s, RDone (VFail VE_MALFORMED_CERT)))
        | Some period => let! r := gotCert (request fuel0 en (vj_pkt j)) en (vs_store s) (vj_chain j) (vj_seen j) (mkCert pk period) in Ok (fin r)
        end
      else Ok (s, []))
  (* 79-99 *)
  | VNack i => on i PFetch (fun j fin =>
      let rq := vj_req j in
      if 0 <=? cq_left rq - 1
      then Ok (mkVS (vs_store s) (mkVJ i (vj_pkt j) (vj_chain j) (vj_seen j) (mkCQ (cq_int rq) (cq_left rq - 1) (cq_wait rq * 2)) PWait :: job_del i (vs_jobs s)) (vs_next s), [OWait i (cq_wait rq)])
      else Ok (fin (vs_store s, RDone (VFail VE_CANNOT_RETRIEVE))))
  (* 101-116 *)
  | VTimeout en i => on i PFetch (fun j fin =>
      let rq := vj_req j in
      if 0 <=? cq_left rq - 1
      then let! r := fetch (request fuel0 en (vj_pkt j)) true en (vs_store s) (vj_pkt j) (vj_chain j) (vj_seen j) (mkCQ (cq_int rq) (cq_left rq - 1) (cq_wait rq)) in Ok (fin r)
      else Ok (fin (vs_store s, RDone (VFail VE_CANNOT_RETRIEVE))))
  (* 90-91 *)
  | VWake en i => on i PWait (fun j fin =>
      let! r := fetch (request fuel0 en (vj_pkt j)) true en (vs_store s) (vj_pkt j) (vj_chain j) (vj_seen j) (vj_req j) in Ok (fin r))
  | VDrop i => match job_find i (vs_jobs s) with
               | Some j => Ok (mkVS (vs_store s) (job_del i (vs_jobs s)) (vs_next s), [OVerdict i (VFail VE_IMPLEMENTATION)])
               | None => Ok (s, [])
               end
  (* certificate-storage.cpp:49-66 *)
  | VAnch o => let st := vs_store s in
      let! r := ta_step o (st_anch st) in
      Ok (mkVS (mkSt (fst r) (st_ver st) (st_unv st)) (vs_jobs s) (vs_next s), match snd r with TOut (Some e) => [OThrow e] | _ => [] end)
  (* 68-78 *)
  | VCacheVerified en c => let st := vs_store s in
      match cc_insert (en_sys en) c (st_ver st) with
      | Ok v => Ok (mkVS (mkSt (st_anch st) v (st_unv st)) (vs_jobs s) (vs_next s), [])
      | Err e => if catchable e then Ok (s, [OThrow e]) else Err e
      end
  | VResetVerified => let st := vs_store s in Ok (mkVS (mkSt (st_anch st) (cc_clear (st_ver st)) (st_unv st)) (vs_jobs s) (vs_next s), [])
  end.
Fixpoint run (l : list vevent) (s : vstate) : res (vstate * list (list vout)) :=
  match l with
  | [] => Ok (s, [])
  | e :: l' => let! r := step e s in let! x := run l' (fst r) in Ok (fst x, snd r :: snd x)
  end.
End Validator.
