(* What is said about the key chain: which histories, which key is to sign, when a public and a private key go together. *)
From Verif Require Import Base M_Tlv M_Name S_Name M_Ims M_Pib S_Pib M_KeyChain.
From Coq Require Import String.
Open Scope list_scope.
Open Scope N_scope.

Section S.
Variable P : Type.
Variable pub : P -> option bytes.
Variable sg : P -> N -> bytes -> bytes.
Variable vf : bytes -> bytes -> bytes -> bool.
Variable sha : bytes -> bytes.
Variable hdig : P -> bytes.
Variable sigtype : bytes -> option N.
Variable portion : nm -> bytes -> N -> option nm -> bytes.
Notation kch := (kch P).
Notation kop := (kop P).
Notation step := (kc_step P pub sg vf sha hdig sigtype portion).
Notation run := (kc_run P pub sg vf sha hdig sigtype portion).

(* every signature made with the private key verifies with the public key *)
Definition goes_with (b : bytes) (q : P) : Prop := forall rnd msg, vf b msg (sg q rnd msg) = true.
(* What is taken from cryptography: the public key that is derived from a private key goes with it; a public key that verifies one signature of a private key
   (the trial in importSafeBag) goes with it. *)
Record crypto_ok : Prop := mkCrypto {
  derived : forall q b, pub q = Some b -> goes_with b q;
  trial : forall q b rnd msg, vf b msg (sg q rnd msg) = true -> goes_with b q }.

(* the answer to a read, and what is stored *)
Definition read (s : kch) (o : pop) : res pans := snd (pb_step o (c_pib P s)).
Definition stored (s : kch) : be := p_be (c_pib P s).
Definition private (s : kch) (n : nm) : option P := nget n (c_tpm P s).

Definition readonly (o : pop) : Prop :=
  match o with PGetId _ | PGetDefId | PIdNames | PIdName _ | PKeyInfo _ | PGetKey _ _ | PKeyNames _ | PGetDefKey _ | PGetCert _ _ | PCertNames _ | PGetDefCert _ => True | _ => False end.
Definition real_kop (o : kop) : Prop :=
  match o with KAddCert _ _ c | KSetDefCert _ _ c | KImport _ c _ _ _ => real_cert c | KRead _ o => readonly o | _ => True end.
(* the key that is generated gets a name that is not in use: this can fail for names made from a digest only *)
Definition unused (s : kch) (i : nm) (pr : params P) : Prop :=
  if pr_hmac P pr then private s (i ++ [(8, hdig (pr_key P pr))]) = None
  else match pr_id P pr with
       | Sha256Id => forall b, pub (pr_key P pr) = Some b -> private s (i ++ [KEYC; (8, sha b)]) = None
       | _ => True
       end.
(* the calls that are known to go wrong: deleting a key of an identity whose default key is another one, replacing the default certificate by another one of the same name,
   making a default of a certificate of another public key *)
Definition kcareful_op (s : kch) (o : kop) : Prop :=
  match o with
  | KDelKey _ h k => forall k', read s (PGetDefKey h) = Ok (AKey k') -> k' = k
  | KAddCert _ k c => forall d, read s (PGetDefCert k) = Ok (ACert d) -> pc_name d = pc_name c -> d = c
  | KSetDefCert _ k c => forall kn b, read s (PKeyInfo k) = Ok (AInfo kn b) -> b = pc_bits c
  | KCreateId _ n pr => unused s n pr
  | KCreateKey _ h pr => forall i, read s (PIdName h) = Ok (AName i) -> unused s i pr
  | KCreateHmac _ n q => private s (n ++ [(8, hdig q)]) = None
  | _ => True
  end.
Fixpoint kcareful (l : list kop) (s : kch) : Prop := match l with [] => True | o :: l' => kcareful_op s o /\ kcareful l' (fst (step o s)) end.
Definition reached (s : kch) : Prop := exists l, Forall real_kop l /\ kcareful l (kc_new P) /\ s = run l (kc_new P).

(* the handles given to the call are valid, where the documentation demands it *)
Definition valid_id (s : kch) (h : N) : Prop := exists i, read s (PIdName h) = Ok (AName i).
Definition valid_key (s : kch) (k : N) : Prop := exists kn b, read s (PKeyInfo k) = Ok (AInfo kn b).
Definition usable (s : kch) (o : kop) : Prop :=
  match o with
  | KSetDefId _ h | KCreateKey _ h _ | KDelKey _ h _ => valid_id s h
  | KSetDefKey _ h k => valid_id s h /\ valid_key s k
  | KAddCert _ k _ | KDelCert _ k _ | KSetDefCert _ k _ => valid_key s k
  | _ => True
  end.

(* ---- signing ---- *)
(* the identity, the key that the signing information speaks of: that of the handle while it is valid, otherwise that of the name *)
Definition the_id (s : kch) (h : option N) (n : nm) : nm := match h with Some h => match read s (PIdName h) with Ok (AName i) => i | _ => n end | None => n end.
Definition the_key (s : kch) (k : option N) (n : nm) : nm := match k with Some k => match read s (PKeyInfo k) with Ok (AInfo kn _) => kn | _ => n end | None => n end.
(* How to sign: with the digest, with an HMAC key, with a key of the PIB; or not at all. *)
Inductive how := ByDigest | ByHmac (q : P) | ByKey (kn : nm) (cert : option nm) | Refused.
Definition by_key (s : kch) (kn : nm) (cert : option nm) : how := if has kn (b_keys (stored s)) then ByKey kn cert else Refused.
Definition by_identity (s : kch) (i : nm) : how := match nget i (b_defK (stored s)) with Some kn => by_key s kn None | None => Refused end.
Definition how_to_sign (s : kch) (sn : signer P) : how :=
  match sn with
  | SgNull _ => match b_def (stored s) with Some i => by_identity s i | None => ByDigest end
  | SgId _ h n => by_identity s (the_id s h n)
  | SgKey _ k n => by_key s (the_key s k n) None
  | SgCert _ cn => match key_of_cert cn with Some kn => by_key s kn (Some cn) | None => Refused end
  | SgSha _ => ByDigest
  | SgHmac _ q => ByHmac q
  end.
(* the KeyLocator: the one asked for, else the certificate asked for, else the default certificate of the key, else the key *)
Definition locator (s : kch) (kl : option nm) (kn : nm) (cert : option nm) : nm :=
  match kl with Some l => l | None => match cert with Some l => l | None => match nget kn (b_defC (stored s)) with Some l => l | None => kn end end end.
(* the packet has the right SignatureType, KeyLocator and SignatureValue *)
Definition signed_as (s : kch) (sn : signer P) (kl : option nm) (rnd : N) (msg : bytes) (a : res (kans P)) : Prop :=
  match how_to_sign s sn with
  | ByDigest => a = Ok (KSigned P 0 kl (sha msg))
  | ByHmac q => exists q', (private s (HMACID ++ [(8, hdig q)]) = None -> q' = q) /\ (forall x, private s (HMACID ++ [(8, hdig q)]) = Some x -> q' = x) /\
                a = Ok (KSigned P 4 (Some (HMACID ++ [(8, hdig q)])) (sg q' rnd msg))
  | ByKey kn cert => exists b, nget kn (b_keys (stored s)) = Some b /\
                match sigtype b with
                | Some ty => exists v, a = Ok (KSigned P ty (Some (locator s kl kn cert)) v) /\ vf b msg v = true
                | None => a = Err ELogic
                end
  | Refused => a = Err ELogic \/ a = Err EInvalidArg
  end.
End S.
