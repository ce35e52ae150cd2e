(* Model of security/key-chain.cpp (management, import and export, signing), security/tpm/{tpm,back-end}.cpp and security/tpm/impl/back-end-mem.cpp, on top of the PIB of M_Pib.
   Cryptography is a parameter: see the Section variables.  What the program gets from outside (a generated key, random key ids, the time, the randomness of a signature)
   is an argument of the operation.
   Not modelled: the constructors and locators, the other TPM back ends, the encoding of the packet around the signature (C16-C24), ValidityPeriod of certificates (C54),
   makeCertificate for other keys, DigestAlgorithm other than SHA256, signing operations of OpenSSL that fail.
   ERuntime stands for Pib::Error, as in M_Pib; ELogic for KeyChain::Error, InvalidSigningInfoError, Tpm::Error and the errors of PrivateKey, which no handler of Pib::Error catches. *)
From Verif Require Import Base M_Tlv M_Str M_Name S_Name M_Ims M_Pib.
From Coq Require Import String.
Open Scope list_scope.
Open Scope N_scope.

Section KeyChain.
Variable P : Type.                                             (* transform::PrivateKey *)
Variable pub : P -> option bytes.                              (* derivePublicKey; None: it throws *)
Variable sg : P -> N -> bytes -> bytes.                        (* signature of a message with this key and this randomness *)
Variable vf : bytes -> bytes -> bytes -> bool.                 (* verifySignature(message, signature, public key): public key, message, signature *)
Variable sha : bytes -> bytes.                                 (* SHA-256 *)
Variable hdig : P -> bytes.                                    (* PrivateKey::getKeyDigest *)
Variable sigtype : bytes -> option N.                          (* getSignatureType of the type of this public key (key-impl.cpp:41-48, key-chain.cpp:767-780); None: unsupported, it throws *)
Variable portion : nm -> bytes -> N -> option nm -> bytes.     (* the signed portion of a certificate with this name, content, SignatureType, KeyLocator *)

(* tpm.hpp:213-217 Tpm, back-end-mem.cpp:35-39 BackEndMem: the keys, and the handles that are open *)
Record kch := mkC { c_pib : pib; c_tpm : list (nm * P); c_open : list (nm * P) }.
Definition kc_new : kch := mkC (pib_new be_empty) [] [].
Definition kst A := kch -> kch * res A.
Definition kret {A} (a : A) : kst A := fun s => (s, Ok a).
Definition kfail {A} (e : err) : kst A := fun s => (s, Err e).
Definition kthen {A B} (m : kst A) (f : A -> kst B) : kst B := fun s => match m s with (s', Ok a) => f a s' | (s', Err e) => (s', Err e) end.
Notation "'go' x <- m ; k" := (kthen m (fun x => k)) (at level 200, x pattern, right associativity).
Definition lift {A} (m : st A) : kst A := fun s => let (p, a) := m (c_pib s) in (mkC p (c_tpm s) (c_open s), a).
(* catch (const Pib::Error&) *)
Definition catch {A} (m : kst A) (h : kst A) : kst A := fun s => match m s with (s', Err ERuntime) => h s' | r => r end.

(* ---- Tpm ---- *)
Definition tpm_has (n : nm) (s : kch) : bool := has n (c_tpm s).                                             (* tpm.cpp:38-42, back-end-mem.cpp:55-59 *)
Definition tpm_delete (n : nm) : kst unit := fun s => (mkC (c_pib s) (ndel n (c_tpm s)) (ndel n (c_open s)), Ok tt).   (* tpm.cpp:53-60, back-end-mem.cpp:99-103 *)
(* tpm.cpp:112-125 findKey *)
Definition tpm_find (n : nm) : kst (option P) := fun s =>
  match nget n (c_open s) with
  | Some q => (s, Ok (Some q))
  | None => match nget n (c_tpm s) with Some q => (mkC (c_pib s) (c_tpm s) (nset n q (c_open s)), Ok (Some q)) | None => (s, Ok None) end
  end.
(* tpm.cpp:100-110, back-end.cpp:93-109, back-end-mem.cpp:113-130: importing *)
Definition tpm_import (n : nm) (q : P) : kst unit := fun s => if tpm_has n s then (s, Err ELogic) else (mkC (c_pib s) (nset n q (c_tpm s)) (c_open s), Ok tt).
(* key-params.hpp KeyIdType; the numbers drawn for a random key id, and the loop fails with EFuel when they are used up *)
Inductive keyid := UserId (c : key) | Sha256Id | RandomId (draws : list key).
(* the key that is generated, whether HMAC was asked for, the version of the certificate that is made for it and the randomness of its signature *)
Record params := mkPr { pr_id : keyid; pr_hmac : bool; pr_key : P; pr_ver : key; pr_rnd : N }.
(* back-end.cpp:127-134: the loop for a random key id *)
Fixpoint first_free (i : nm) (draws : list key) (s : kch) : res nm :=
  match draws with
  | [] => Err EFuel
  | d :: l => if tpm_has (constructKeyName i d) s then first_free i l s else Ok (constructKeyName i d)
  end.
(* back-end.cpp:50-76, 111-146: the name of a new key *)
Definition new_name (i : nm) (pr : params) (s : kch) : res nm :=
  if pr_hmac pr then Ok (i ++ [(8, hdig (pr_key pr))])
  else match pr_id pr with
       | UserId c => let n := constructKeyName i c in if tpm_has n s then Err ELogic else Ok n
       | Sha256Id => match pub (pr_key pr) with Some b => Ok (constructKeyName i (8, sha b)) | None => Err ELogic end
       | RandomId l => first_free i l s
       end.
(* tpm.cpp:44-51, back-end-mem.cpp:70-97 *)
Definition tpm_create (i : nm) (pr : params) : kst nm := fun s =>
  match new_name i pr s with
  | Err e => (s, Err e)
  | Ok n => (mkC (c_pib s) (nset n (pr_key pr) (c_tpm s)) (nset n (pr_key pr) (c_open s)), Ok n)
  end.
(* tpm.cpp:62-67 *)
Definition tpm_public (n : nm) : kst bytes := go q <- tpm_find n; match q with Some q => match pub q with Some b => kret b | None => kfail ELogic end | None => kfail EUb end.

(* ---- signing ---- *)
Definition DIGEST : nm := [(8, str "localhost"); (8, str "identity"); (8, str "digest-sha256")].      (* signing-info.cpp:31-36 *)
Definition HMACID : nm := [(8, str "localhost"); (8, str "identity"); (8, str "hmac")].               (* signing-info.cpp:38-43 *)
(* signing-info.hpp:60-73 SignerType, with the handle given if any, and the name that setPibIdentity and setPibKey keep *)
Inductive signer := SgNull | SgId (h : option N) (n : nm) | SgKey (k : option N) (n : nm) | SgCert (n : nm) | SgSha | SgHmac (q : P).
Definition live_id (h : option N) (s : kch) : option N := match h with Some h => match find_id h (c_pib s) with Some _ => Some h | None => None end | None => None end.
Definition live_key (h : option N) (s : kch) : option N := match h with Some h => match find_key h (c_pib s) with Some _ => Some h | None => None end | None => None end.
(* key-chain.cpp:721-744 prepareSignatureInfoWithKey; kl: the KeyLocator of the SignatureInfo in the SigningInfo; the result is key name, SignatureType, KeyLocator *)
Definition prepare_key (kl : option nm) (k : N) (cn : option nm) : kst (nm * N * option nm) :=
  go x <- lift (with_key k (fun x => ret (k_name x, k_bits x)));
  go ty <- match sigtype (snd x) with Some ty => kret ty | None => kfail ELogic end;
  go l <- match kl, cn with
          | Some l, _ => kret l
          | None, Some l => kret l
          | None, None => catch (go c <- lift (key_getDefaultCert k); kret (pc_name c)) (kret (fst x))
          end;
  kret (fst x, ty, Some l).
(* key-chain.cpp:707-719 prepareSignatureInfoWithIdentity *)
Definition prepare_id (kl : option nm) (h : N) : kst (nm * N * option nm) :=
  go k <- catch (lift (id_getDefaultKey h)) (kfail ELogic);
  prepare_key kl k None.
(* key-chain.cpp:681-689 prepareSignatureInfoSha256 *)
Definition prepare_sha (kl : option nm) : kst (nm * N * option nm) := kret (DIGEST, 0, kl).
(* key-chain.cpp:607-679 prepareSignatureInfo, 691-705 prepareSignatureInfoHmac *)
Definition prepare (sn : signer) (kl : option nm) : kst (nm * N * option nm) := fun s =>
  match sn with
  | SgNull => (go h <- catch (go h <- lift pb_getDefaultIdentity; kret (Some h)) (kret None);
               match h with Some h => prepare_id kl h | None => prepare_sha kl end) s
  | SgId h n => match live_id h s with
                | Some h => prepare_id kl h s
                | None => (go h <- catch (lift (pb_getIdentity n)) (kfail ELogic); prepare_id kl h) s
                end
  | SgKey k n => match live_key k s with
                 | Some k => prepare_key kl k None s
                 | None => match extractIdentityFromKeyName n with
                           | Ok i => (go k <- catch (go h <- lift (pb_getIdentity i); lift (id_getKey h n)) (kfail ELogic); prepare_key kl k None) s
                           | Err e => (s, Err e)
                           end
                 end
  | SgCert n => match extractKeyNameFromCertName n, extractIdentityFromCertName n with
                | Ok kn, Ok i => (go k <- catch (go h <- lift (pb_getIdentity i); lift (id_getKey h kn)) (kfail ELogic); prepare_key kl k (Some n)) s
                | _, _ => (s, Err EInvalidArg)
                end
  | SgSha => prepare_sha kl s
  | SgHmac q => let n := HMACID ++ [(8, hdig q)] in
                (go _ <- (if tpm_has n s then kret tt else tpm_import n q); kret (n, 4, Some n)) s
  end.
(* key-chain.cpp:746-765 sign *)
Definition sign_with (n : nm) (rnd : N) (msg : bytes) : kst bytes :=
  if names_eqb n DIGEST then kret (sha msg)
  else go q <- tpm_find n; match q with Some q => kret (sg q rnd msg) | None => kfail ELogic end.
(* key-chain.cpp:399-438 sign(Data), sign(Interest): SignatureType, KeyLocator and SignatureValue of the packet whose signed portion is msg *)
Definition kc_sign (sn : signer) (kl : option nm) (rnd : N) (msg : bytes) : kst (N * option nm * bytes) :=
  go (n, ty, l) <- prepare sn kl;
  go v <- sign_with n rnd msg;
  kret (ty, l, v).
Definition SELF : key := (8, str "self").                                                  (* key-chain.cpp:70 *)
(* key-chain.cpp:561-605 makeCertificate, selfSign; the SignatureValue stands for the rest of the certificate *)
Definition selfSign (k : N) (ver : key) (rnd : N) : kst unit :=
  go x <- lift (with_key k (fun x => ret (k_name x, k_bits x)));
  go (n, ty, l) <- prepare (SgKey (Some k) (fst x)) None;
  let cn := fst x ++ [SELF; ver] in
  go v <- sign_with n rnd (portion cn (snd x) ty l);
  lift (key_addCert k (mkPC cn (snd x) v)).

(* ---- management ---- *)
Definition need_id (h : N) : kst unit := fun s => match live_id (Some h) s with Some _ => (s, Ok tt) | None => (s, Err EAssert) end.
Definition need_key (k : N) : kst unit := fun s => match live_key (Some k) s with Some _ => (s, Ok tt) | None => (s, Err EAssert) end.
Definition name_of_id (h : N) : kst nm := lift (with_id h (fun i => ret (i_name i))).
Definition name_of_key (k : N) : kst nm := lift (with_key k (fun x => ret (k_name x))).
(* key-chain.cpp:247-262 createKey *)
Definition kc_createKey (h : N) (pr : params) : kst N :=
  go _ <- need_id h;
  go i <- name_of_id h;
  go kn <- tpm_create i pr;
  go b <- tpm_public kn;
  go k <- lift (id_addKey h b kn);
  go _ <- selfSign k (pr_ver pr) (pr_rnd pr);
  kret k.
(* key-chain.cpp:197-220 createIdentity *)
Definition kc_createIdentity (n : nm) (pr : params) : kst N :=
  go h <- lift (pb_addIdentity n);
  go k <- catch (lift (id_getDefaultKey h)) (kc_createKey h pr);
  go _ <- catch (go _ <- lift (key_getDefaultCert k); kret tt) (selfSign k (pr_ver pr) (pr_rnd pr));
  kret h.
(* key-chain.cpp:222-237 deleteIdentity; key-container.hpp:53-58: going through the keys opens them *)
Fixpoint delete_keys (h : N) (l : list nm) : kst unit :=
  match l with
  | [] => kret tt
  | kn :: l' => go k <- lift (with_id h (fun i => kc_get i kn)); go n <- name_of_key k; go _ <- tpm_delete n; delete_keys h l'
  end.
Definition kc_deleteIdentity (h : N) : kst unit := fun s =>
  match live_id (Some h) s with
  | None => (s, Ok tt)
  | Some _ => (go i <- name_of_id h; go l <- lift (id_keyNames h); go _ <- delete_keys h l; lift (pb_removeIdentity i)) s
  end.
(* key-chain.cpp:239-245 setDefaultIdentity *)
Definition kc_setDefaultIdentity (h : N) : kst unit := go _ <- need_id h; go i <- name_of_id h; go _ <- lift (pb_setDefaultIdentity i); kret tt.
(* key-chain.cpp:264-268 createHmacKey *)
Definition kc_createHmac (i : nm) (q : P) : kst nm := tpm_create i (mkPr Sha256Id true q SELF 0).
(* key-chain.cpp:270-281 deleteKey *)
Definition kc_deleteKey (h k : N) : kst unit :=
  go _ <- need_id h;
  fun s => match live_key (Some k) s with
           | None => (s, Ok tt)
           | Some _ => (go kn <- name_of_key k; go _ <- lift (id_removeKey h kn); tpm_delete kn) s
           end.
(* key-chain.cpp:283-290 setDefaultKey *)
Definition kc_setDefaultKey (h k : N) : kst unit := go _ <- need_id h; go _ <- need_key k; go kn <- name_of_key k; go _ <- lift (id_setDefaultKey h kn); kret tt.
(* key-chain.cpp:292-314 *)
Definition kc_addCertificate (k : N) (c : pcert) : kst unit := go _ <- need_key k; lift (key_addCert k c).
Definition kc_deleteCertificate (k : N) (cn : nm) : kst unit := go _ <- need_key k; lift (key_removeCert k cn).
Definition kc_setDefaultCertificate (k : N) (c : pcert) : kst unit := go _ <- need_key k; lift (key_setDefaultCert k c).
(* key-chain.cpp:316-330 exportSafeBag, with the private key instead of its encryption under the password *)
Definition kc_export (c : pcert) : kst (pcert * P) := fun s => match nget (pc_key c) (c_tpm s) with Some q => (s, Ok (c, q)) | None => (s, Err ELogic) end.
(* key-chain.cpp:332-380 importSafeBag; q is None if the password is wrong or the key cannot be loaded; rnd and msg for the trial signature *)
Definition kc_import (c : pcert) (q : option P) (rnd : N) (msg : bytes) : kst unit := fun s =>
  let i := pc_identity c in
  let kn := pc_key c in
  if tpm_has kn s then (s, Err ELogic)
  else (go _ <- catch (go h <- lift (pb_getIdentity i); go _ <- lift (id_getKey h kn); kfail ELogic) (kret tt);
        match q with
        | None => kfail ELogic
        | Some q =>
          go _ <- tpm_import kn q;
          go v <- tpm_find kn;
          match v with
          | None => kfail EUb
          | Some q => if vf (pc_bits c) msg (sg q rnd msg)
                      then go h <- lift (pb_addIdentity i); go k <- lift (id_addKey h (pc_bits c) kn); lift (key_addCert k c)
                      else go _ <- tpm_delete kn; kfail ELogic
          end
        end) s.
(* key-chain.cpp:382-395 importPrivateKey *)
Definition kc_importPrivateKey (n : nm) (q : P) : kst unit := tpm_import n q.

(* the calls of a user of the key chain; KRead is a read through getPib() or a handle *)
Inductive kop :=
| KCreateId (n : nm) (pr : params) | KDelId (h : N) | KSetDefId (h : N) | KCreateKey (h : N) (pr : params) | KCreateHmac (n : nm) (q : P) | KDelKey (h k : N) | KSetDefKey (h k : N)
| KAddCert (k : N) (c : pcert) | KDelCert (k : N) (cn : nm) | KSetDefCert (k : N) (c : pcert)
| KExport (c : pcert) | KImport (c : pcert) (q : option P) (rnd : N) (msg : bytes) | KImportKey (n : nm) (q : P)
| KSign (sn : signer) (kl : option nm) (rnd : N) (msg : bytes) | KRead (o : pop).
Inductive kans := KOk | KHandle (h : N) | KName (n : nm) | KBag (c : pcert) (q : P) | KSigned (ty : N) (kl : option nm) (v : bytes) | KGot (a : pans).
Definition kas {A} (f : A -> kans) (m : kst A) : kst kans := fun s => match m s with (s', Ok a) => (s', Ok (f a)) | (s', Err e) => (s', Err e) end.
Definition kc_step (o : kop) : kst kans :=
  match o with
  | KCreateId n pr => kas KHandle (kc_createIdentity n pr) | KDelId h => kas (fun _ => KOk) (kc_deleteIdentity h) | KSetDefId h => kas (fun _ => KOk) (kc_setDefaultIdentity h)
  | KCreateKey h pr => kas KHandle (kc_createKey h pr) | KCreateHmac n q => kas KName (kc_createHmac n q)
  | KDelKey h k => kas (fun _ => KOk) (kc_deleteKey h k) | KSetDefKey h k => kas (fun _ => KOk) (kc_setDefaultKey h k)
  | KAddCert k c => kas (fun _ => KOk) (kc_addCertificate k c) | KDelCert k cn => kas (fun _ => KOk) (kc_deleteCertificate k cn)
  | KSetDefCert k c => kas (fun _ => KOk) (kc_setDefaultCertificate k c)
  | KExport c => kas (fun x => KBag (fst x) (snd x)) (kc_export c) | KImport c q rnd msg => kas (fun _ => KOk) (kc_import c q rnd msg)
  | KImportKey n q => kas (fun _ => KOk) (kc_importPrivateKey n q)
  | KSign sn kl rnd msg => kas (fun x => KSigned (fst (fst x)) (snd (fst x)) (snd x)) (kc_sign sn kl rnd msg)
  | KRead o => kas KGot (lift (pb_step o))
  end.
Fixpoint kc_run (l : list kop) (s : kch) : kch := match l with [] => s | o :: l' => kc_run l' (fst (kc_step o s)) end.
End KeyChain.
