(* Model of the PIB: security/pib/impl/pib-memory.cpp, security/pib/{pib,identity-container,key-container,certificate-container,identity,key}.cpp and
   security/pib/impl/{identity-impl,key-impl}.{hpp,cpp}.
   Names are lists of (type, value) as in M_Ims.  std::set<Name> and std::map<Name, ...> are lists whose order has no meaning; the order of iteration matters nowhere.
   A handle (Identity, Key) is a weak pointer to an object in a container; objects are numbered in the order of their creation, the number is the handle.
   EAssert stands for a BOOST_ASSERT that fails.
   Not modelled: the SQLite back end, the key type that KeyImpl works out of the bits (it only warns about a key it cannot load), logging, the TPM locator, iterators (see pb_keyNames), and Certificate objects whose name is not a certificate name (a Certificate
   made from a packet has one, certificate.cpp:41-53).
   ERuntime stands for Pib::Error, EInvalidArg for std::invalid_argument, EDomain for the std::domain_error of a handle that has expired. *)
From Verif Require Import Base M_Tlv M_Str M_Name S_Name M_Ims.
From Coq Require Import String.
Open Scope list_scope.
Open Scope N_scope.

Definition nm := list key.
Definition KEYC : key := (8, str "KEY").                                                  (* certificate.hpp:158 KEY_COMPONENT *)
(* name.get(-k-1) *)
Definition from_end (k : nat) (n : nm) : option key := nth_error (rev n) k.
(* name.getPrefix(-k) *)
Definition drop_end (k : nat) (n : nm) : nm := firstn (List.length n - k) n.
Definition isKEY (c : option key) : bool := match c with Some c => key_eqb c KEYC | None => false end.
(* key.cpp:133-138 isValidKeyName *)
Definition isValidKeyName (n : nm) : bool := isKEY (from_end 1 n).
(* key.cpp:140-149 *)
Definition extractIdentityFromKeyName (n : nm) : res nm := if isValidKeyName n then Ok (drop_end 2 n) else Err EInvalidArg.
(* certificate.cpp:111-117 isValidName *)
Definition isValidCertName (n : nm) : bool := isKEY (from_end 3 n).
(* certificate.cpp:186-206 *)
Definition extractIdentityFromCertName (n : nm) : res nm := if isValidCertName n then Ok (drop_end 4 n) else Err EInvalidArg.
Definition extractKeyNameFromCertName (n : nm) : res nm := if isValidCertName n then Ok (drop_end 2 n) else Err EInvalidArg.
(* key.cpp:125-131 *)
Definition constructKeyName (identity : nm) (keyId : key) : nm := identity ++ [KEYC; keyId].

(* what the PIB looks at in a Certificate: its name, the public key in its content; the rest stands for everything else *)
Record pcert := mkPC { pc_name : nm; pc_bits : bytes; pc_rest : bytes }.
Definition pc_key (c : pcert) : nm := drop_end 2 (pc_name c).                             (* certificate.cpp:71-75 getKeyName *)
Definition pc_identity (c : pcert) : nm := drop_end 4 (pc_name c).                        (* certificate.cpp:65-69 getIdentity *)

(* ---- sets and maps indexed by names ---- *)
Definition nmem (n : nm) (l : list nm) : bool := existsb (names_eqb n) l.
Definition nadd (n : nm) (l : list nm) : list nm := if nmem n l then l else l ++ [n].
Definition nrem (n : nm) (l : list nm) : list nm := filter (fun x => negb (names_eqb n x)) l.
Definition same_set (a b : list nm) : bool := forallb (fun x => nmem x b) a && forallb (fun x => nmem x a) b.
Fixpoint nget {A} (n : nm) (l : list (nm * A)) : option A := match l with [] => None | (k, v) :: l' => if names_eqb n k then Some v else nget n l' end.
Definition ndel {A} (n : nm) (l : list (nm * A)) : list (nm * A) := filter (fun p => negb (names_eqb n (fst p))) l.
Definition nset {A} (n : nm) (v : A) (l : list (nm * A)) : list (nm * A) := (n, v) :: ndel n l.
Definition has {A} (n : nm) (l : list (nm * A)) : bool := match nget n l with Some _ => true | None => false end.

(* ---- pib-memory.hpp:125-140 PibMemory ---- *)
Record be := mkBe { b_ids : list nm; b_def : option nm; b_keys : list (nm * bytes); b_defK : list (nm * nm); b_certs : list (nm * pcert); b_defC : list (nm * nm) }.
Definition be_empty : be := mkBe [] None [] [] [] [].
(* pib-memory.cpp:53-61 *)
Definition be_addIdentity (n : nm) (b : be) : be :=
  mkBe (nadd n (b_ids b)) (match b_def b with None => Some n | d => d end) (b_keys b) (b_defK b) (b_certs b) (b_defC b).
(* pib-memory.cpp:158-166 getKeysOfIdentity; no stored name makes extractIdentityFromKeyName throw *)
Definition of_identity (i kn : nm) : bool := match extractIdentityFromKeyName kn with Ok x => names_eqb x i | Err _ => false end.
Definition be_keysOf (i : nm) (b : be) : list nm := filter (of_identity i) (map fst (b_keys b)).
(* pib-memory.cpp:231-239 getCertificatesOfKey *)
Definition of_key (k cn : nm) : bool := match extractKeyNameFromCertName cn with Ok x => names_eqb x k | Err _ => false end.
Definition be_certsOf (k : nm) (b : be) : list nm := filter (of_key k) (map fst (b_certs b)).
(* pib-memory.cpp:210-218 removeCertificate *)
Definition be_removeCert (cn : nm) (b : be) : be :=
  let kn := drop_end 2 cn in
  mkBe (b_ids b) (b_def b) (b_keys b) (b_defK b) (ndel cn (b_certs b))
    (match nget kn (b_defC b) with Some d => if names_eqb d cn then ndel kn (b_defC b) else b_defC b | None => b_defC b end).
(* pib-memory.cpp:133-144 removeKey; the default key of the identity is forgotten whichever key is removed *)
Definition be_removeKey (kn : nm) (b : be) : be :=
  let b1 := mkBe (b_ids b) (b_def b) (ndel kn (b_keys b)) (ndel (drop_end 2 kn) (b_defK b)) (b_certs b) (b_defC b) in
  fold_left (fun b cn => be_removeCert cn b) (be_certsOf kn b1) b1.
(* pib-memory.cpp:63-75 removeIdentity *)
Definition be_removeIdentity (n : nm) (b : be) : be :=
  let b1 := mkBe (nrem n (b_ids b)) (match b_def b with Some d => if names_eqb n d then None else Some d | None => None end) (b_keys b) (b_defK b) (b_certs b) (b_defC b) in
  fold_left (fun b kn => be_removeKey kn b) (be_keysOf n b1) b1.
(* pib-memory.cpp:94-102 setDefaultIdentity *)
Definition be_setDefId (n : nm) (b : be) : res be :=
  if nmem n (b_ids b) then Ok (mkBe (b_ids b) (Some n) (b_keys b) (b_defK b) (b_certs b) (b_defC b)) else Err ERuntime.
(* pib-memory.cpp:104-112 *)
Definition be_getDefId (b : be) : res nm := match b_def b with Some d => Ok d | None => Err ERuntime end.
(* pib-memory.cpp:120-131 addKey *)
Definition be_addKey (i kn : nm) (bits : bytes) (b : be) : be :=
  let b := be_addIdentity i b in
  mkBe (b_ids b) (b_def b) (nset kn bits (b_keys b)) (if has i (b_defK b) then b_defK b else nset i kn (b_defK b)) (b_certs b) (b_defC b).
(* pib-memory.cpp:146-156 getKeyBits *)
Definition be_getKeyBits (kn : nm) (b : be) : res bytes := match nget kn (b_keys b) with Some v => Ok v | None => Err ERuntime end.
(* pib-memory.cpp:168-176 *)
Definition be_setDefKey (i kn : nm) (b : be) : res be :=
  if has kn (b_keys b) then Ok (mkBe (b_ids b) (b_def b) (b_keys b) (nset i kn (b_defK b)) (b_certs b) (b_defC b)) else Err ERuntime.
(* pib-memory.cpp:178-187 *)
Definition be_getDefKey (i : nm) (b : be) : res nm := match nget i (b_defK b) with Some d => Ok d | None => Err ERuntime end.
(* pib-memory.cpp:195-208 addCertificate *)
Definition be_addCert (c : pcert) (b : be) : be :=
  let b := be_addKey (pc_identity c) (pc_key c) (pc_bits c) b in
  mkBe (b_ids b) (b_def b) (b_keys b) (b_defK b) (nset (pc_name c) c (b_certs b))
    (if has (pc_key c) (b_defC b) then b_defC b else nset (pc_key c) (pc_name c) (b_defC b)).
(* pib-memory.cpp:220-229 *)
Definition be_getCert (cn : nm) (b : be) : res pcert := match nget cn (b_certs b) with Some c => Ok c | None => Err ERuntime end.
(* pib-memory.cpp:241-249 *)
Definition be_setDefCert (kn cn : nm) (b : be) : res be :=
  if has cn (b_certs b) then Ok (mkBe (b_ids b) (b_def b) (b_keys b) (b_defK b) (b_certs b) (nset kn cn (b_defC b))) else Err ERuntime.
(* pib-memory.cpp:251-262 *)
Definition be_getDefCert (kn : nm) (b : be) : res pcert :=
  match nget kn (b_defC b) with Some cn => match nget cn (b_certs b) with Some c => Ok c | None => Err EAssert end | None => Err ERuntime end.

(* ---- the front end ---- *)
(* identity-impl.hpp:100-105 IdentityImpl with its KeyContainer, key-container.hpp:167-172; i_keys of the container are the objects in p_keys that it owns *)
Record idimpl := mkId { i_uid : N; i_name : nm; i_knames : list nm; i_def : option N }.
(* key-impl.hpp:122-130 KeyImpl with its CertificateContainer, certificate-container.hpp:164-169 *)
Record kimpl := mkK { k_uid : N; k_owner : N; k_name : nm; k_bits : bytes; k_cnames : list nm; k_certs : list (nm * pcert); k_def : option pcert }.
(* pib.hpp:149-153 Pib with its IdentityContainer, identity-container.hpp:170-174 *)
Record pib := mkPib { p_be : be; p_names : list nm; p_ids : list idimpl; p_keys : list kimpl; p_def : option N; p_next : N }.
Definition wBe v p := mkPib v (p_names p) (p_ids p) (p_keys p) (p_def p) (p_next p).
Definition wNames v p := mkPib (p_be p) v (p_ids p) (p_keys p) (p_def p) (p_next p).
Definition wIds v p := mkPib (p_be p) (p_names p) v (p_keys p) (p_def p) (p_next p).
Definition wKeys v p := mkPib (p_be p) (p_names p) (p_ids p) v (p_def p) (p_next p).
Definition wDef v p := mkPib (p_be p) (p_names p) (p_ids p) (p_keys p) v (p_next p).
(* pib.cpp:30-36, identity-container.cpp:41-46: a Pib over a back end *)
Definition pib_new (b : be) : pib := mkPib b (b_ids b) [] [] None 0.

(* weak_ptr::lock and operator bool *)
Definition find_id (h : N) (p : pib) : option idimpl := find (fun i => i_uid i =? h) (p_ids p).
Definition find_key (h : N) (p : pib) : option kimpl := find (fun k => k_uid k =? h) (p_keys p).
(* m_identities.find(name), m_keys.find(name) of the container of identity u *)
Definition id_named (n : nm) (p : pib) : option idimpl := find (fun i => names_eqb n (i_name i)) (p_ids p).
Definition key_named (u : N) (n : nm) (p : pib) : option kimpl := find (fun k => (k_owner k =? u) && names_eqb n (k_name k)) (p_keys p).
Definition put_id (x : idimpl) (p : pib) : pib := wIds (map (fun i => if i_uid i =? i_uid x then x else i) (p_ids p)) p.
Definition put_key (x : kimpl) (p : pib) : pib := wKeys (map (fun k => if k_uid k =? k_uid x then x else k) (p_keys p)) p.
(* an operation that may change the object before it throws *)
Definition st A := pib -> pib * res A.
Definition fail {A} (e : err) : st A := fun p => (p, Err e).
Definition ret {A} (a : A) : st A := fun p => (p, Ok a).
Definition andthen {A B} (m : st A) (f : A -> st B) : st B := fun p => match m p with (p', Ok a) => f a p' | (p', Err e) => (p', Err e) end.
Notation "'do' x <- m ; k" := (andthen m (fun x => k)) (at level 200, x binder, right associativity).
(* run a getter or a modifier of the back end *)
Definition asks {A} (f : be -> res A) : st A := fun p => (p, f (p_be p)).
Definition modbe (f : be -> be) : st unit := fun p => (wBe (f (p_be p)) p, Ok tt).
Definition trybe (f : be -> res be) : st unit := fun p => match f (p_be p) with Ok b => (wBe b p, Ok tt) | Err e => (p, Err e) end.
Definition assert_ (f : pib -> bool) : st unit := fun p => if f p then (p, Ok tt) else (p, Err EAssert).

(* identity-container.cpp:112-116 isConsistent *)
Definition ids_consistent (p : pib) : bool := same_set (p_names p) (b_ids (p_be p)).
(* key-container.cpp:112-116 *)
Definition keys_consistent (i : idimpl) (p : pib) : bool := same_set (i_knames i) (be_keysOf (i_name i) (p_be p)).
(* certificate-container.cpp:105-109 *)
Definition certs_consistent (k : kimpl) (p : pib) : bool := same_set (k_cnames k) (be_certsOf (k_name k) (p_be p)).

(* identity-impl.cpp:30-37, key-container.cpp:41-47: a new IdentityImpl in the container *)
Definition new_id (n : nm) : st N := fun p =>
  if negb (nmem n (b_ids (p_be p))) then (p, Err EAssert)
  else (mkPib (p_be p) (p_names p) (p_ids p ++ [mkId (p_next p) n (be_keysOf n (p_be p)) None]) (p_keys p) (p_def p) (p_next p + 1), Ok (p_next p)).
(* key-impl.cpp:31-49, certificate-container.cpp:40-46: a new KeyImpl, which replaces one of the same name in the container *)
Definition new_key (u : N) (kn : nm) (bits : bytes) : st N := fun p =>
  if negb (has kn (b_keys (p_be p))) then (p, Err EAssert)
  else (mkPib (p_be p) (p_names p) (p_ids p)
          (filter (fun k => negb ((k_owner k =? u) && names_eqb kn (k_name k))) (p_keys p) ++ [mkK (p_next p) u kn bits (be_certsOf kn (p_be p)) [] None])
          (p_def p) (p_next p + 1), Ok (p_next p)).

(* identity-container.cpp:87-102 get *)
Definition ic_get (n : nm) : st N := fun p =>
  match id_named n p with
  | Some i => (p, Ok (i_uid i))
  | None => if nmem n (b_ids (p_be p)) then new_id n p else (p, Err ERuntime)
  end.
(* identity-container.cpp:54-71 add *)
Definition ic_add (n : nm) : st N := fun p =>
  if nmem n (p_names p) then ic_get n p
  else
    let p := wBe (be_addIdentity n (p_be p)) (wNames (nadd n (p_names p)) p) in
    match id_named n p with Some _ => (p, Err EAssert) | None => new_id n p end.
(* identity-container.cpp:73-85 remove; the objects of its keys go with the container *)
Definition ic_remove (n : nm) : st unit := fun p =>
  if nmem n (p_names p) then
    let gone := map i_uid (filter (fun i => names_eqb n (i_name i)) (p_ids p)) in
    let p := mkPib (p_be p) (nrem n (p_names p)) (filter (fun i => negb (names_eqb n (i_name i))) (p_ids p))
               (filter (fun k => negb (existsb (N.eqb (k_owner k)) gone)) (p_keys p)) (p_def p) (p_next p) in
    modbe (be_removeIdentity n) p
  else match id_named n p with Some _ => (p, Err EAssert) | None => modbe (be_removeIdentity n) p end.

(* pib.cpp:67-72 addIdentity *)
Definition pb_addIdentity (n : nm) : st N := do _ <- assert_ ids_consistent; ic_add n.
(* pib.cpp:74-84 removeIdentity *)
Definition pb_removeIdentity (n : nm) : st unit :=
  do _ <- assert_ ids_consistent;
  fun p => ic_remove n (match p_def p with Some h => match find_id h p with Some i => if names_eqb (i_name i) n then wDef None p else p | None => p end | None => p end).
(* pib.cpp:86-91 getIdentity *)
Definition pb_getIdentity (n : nm) : st N := do _ <- assert_ ids_consistent; ic_get n.
(* pib.cpp:100-111 setDefaultIdentity *)
Definition pb_setDefaultIdentity (n : nm) : st N :=
  do _ <- assert_ ids_consistent;
  do h <- ic_add n;
  do _ <- (fun p => (wDef (Some h) p, Ok tt));
  do _ <- trybe (be_setDefId n);
  do _ <- assert_ (fun p => match find_id h p with Some _ => true | None => false end);
  ret h.
(* pib.cpp:113-126 getDefaultIdentity *)
Definition pb_getDefaultIdentity : st N :=
  do _ <- assert_ ids_consistent;
  do _ <- (fun p => match p_def p with
                    | Some h => match find_id h p with Some _ => ret tt p | None => (do d <- asks be_getDefId; do h <- ic_get d; fun p => (wDef (Some h) p, Ok tt)) p end
                    | None => (do d <- asks be_getDefId; do h <- ic_get d; fun p => (wDef (Some h) p, Ok tt)) p
                    end);
  fun p => match p_def p with
           | Some h => match find_id h p with
                       | Some i => (do d <- asks be_getDefId; do _ <- assert_ (fun _ => names_eqb (i_name i) d); ret h) p
                       | None => (p, Err EAssert)
                       end
           | None => (p, Err EAssert)
           end.
(* pib.cpp:58-65 reset, without the TPM locator *)
Definition pb_reset : st unit := fun p => (mkPib be_empty [] [] [] None (p_next p), Ok tt).
(* pib.cpp:30-36: the Pib is destroyed and another one is made over the same back end; the numbering of handles goes on so that old and new ones differ *)
Definition pb_reopen : st unit := fun p => (mkPib (p_be p) (b_ids (p_be p)) [] [] None (p_next p), Ok tt).
(* pib.cpp:93-98 getIdentities: the names in the container *)
Definition pb_idNames : st (list nm) := do _ <- assert_ ids_consistent; fun p => (p, Ok (p_names p)).

(* Identity::lock, Key::lock *)
Definition with_id {A} (h : N) (f : idimpl -> st A) : st A := fun p => match find_id h p with Some i => f i p | None => (p, Err EDomain) end.
Definition with_key {A} (h : N) (f : kimpl -> st A) : st A := fun p => match find_key h p with Some k => f k p | None => (p, Err EDomain) end.
(* the check at the top of KeyContainer::add, remove, get *)
Definition kc_check (i : idimpl) (kn : nm) : st unit := fun p =>
  (p, match extractIdentityFromKeyName kn with Ok x => if names_eqb (i_name i) x then Ok tt else Err EInvalidArg | Err e => Err e end).
(* key-container.cpp:55-70 add *)
Definition kc_add (i : idimpl) (bits : bytes) (kn : nm) : st N :=
  do _ <- kc_check i kn;
  do _ <- (fun p => (put_id (mkId (i_uid i) (i_name i) (nadd kn (i_knames i)) (i_def i)) p, Ok tt));
  do _ <- modbe (be_addKey (i_name i) kn bits);
  new_key (i_uid i) kn bits.
(* key-container.cpp:72-89 remove *)
Definition kc_remove (i : idimpl) (kn : nm) : st unit :=
  do _ <- kc_check i kn;
  do _ <- (fun p => if nmem kn (i_knames i)
                    then (wKeys (filter (fun k => negb ((k_owner k =? i_uid i) && names_eqb kn (k_name k))) (p_keys p))
                            (put_id (mkId (i_uid i) (i_name i) (nrem kn (i_knames i)) (i_def i)) p), Ok tt)
                    else match key_named (i_uid i) kn p with Some _ => (p, Err EAssert) | None => (p, Ok tt) end);
  modbe (be_removeKey kn).
(* key-container.cpp:91-110 get *)
Definition kc_get (i : idimpl) (kn : nm) : st N :=
  do _ <- kc_check i kn;
  fun p => match key_named (i_uid i) kn p with
           | Some k => (p, Ok (k_uid k))
           | None => (do bits <- asks (be_getKeyBits kn); new_key (i_uid i) kn bits) p
           end.
(* identity-impl.cpp:39-44 addKey *)
Definition id_addKey (h : N) (bits : bytes) (kn : nm) : st N := with_id h (fun i => do _ <- assert_ (keys_consistent i); kc_add i bits kn).
(* identity-impl.cpp:46-56 removeKey *)
Definition id_removeKey (h : N) (kn : nm) : st unit :=
  with_id h (fun i => do _ <- assert_ (keys_consistent i);
    fun p => let forget := match i_def i with Some d => match find_key d p with Some k => names_eqb (k_name k) kn | None => false end | None => false end in
             let i' := if forget then mkId (i_uid i) (i_name i) (i_knames i) None else i in
             kc_remove i' kn (put_id i' p)).
(* identity-impl.hpp:66-71 getKey *)
Definition id_getKey (h : N) (kn : nm) : st N := with_id h (fun i => do _ <- assert_ (keys_consistent i); kc_get i kn).
(* identity-impl.hpp:73-78 getKeys: the names in the container *)
Definition id_keyNames (h : N) : st (list nm) := with_id h (fun i => do _ <- assert_ (keys_consistent i); ret (i_knames i)).
(* identity-impl.cpp:58-69 setDefaultKey(Key) *)
Definition id_setDef (h k : N) : st N :=
  with_id h (fun i => do _ <- assert_ (keys_consistent i);
    fun p => match find_key k p with
             | None => (p, Err EAssert)
             | Some x => (do _ <- trybe (be_setDefKey (i_name i) (k_name x)); ret k) (put_id (mkId (i_uid i) (i_name i) (i_knames i) (Some k)) p)
             end).
(* identity-impl.hpp:80-90 *)
Definition id_setDefaultKey (h : N) (kn : nm) : st N := do k <- with_id h (fun i => kc_get i kn); id_setDef h k.
Definition id_setDefaultKeyBits (h : N) (bits : bytes) (kn : nm) : st N := do k <- with_id h (fun i => kc_add i bits kn); id_setDef h k.
(* identity-impl.cpp:71-84 getDefaultKey *)
Definition id_getDefaultKey (h : N) : st N :=
  with_id h (fun i => do _ <- assert_ (keys_consistent i);
    do d <- (fun p => match (match i_def i with Some d => find_key d p | None => None end) with
                      | Some k => (p, Ok (k_uid k))
                      | None => (do kn <- asks (be_getDefKey (i_name i)); do d <- kc_get i kn;
                                 do _ <- (fun p => (put_id (mkId (i_uid i) (i_name i) (i_knames i) (Some d)) p, Ok tt)); ret d) p
                      end);
    with_key d (fun k => do kn <- asks (be_getDefKey (i_name i)); do _ <- assert_ (fun _ => names_eqb (k_name k) kn); ret d)).

(* certificate-container.cpp:54-68 add *)
Definition cc_add (k : kimpl) (c : pcert) : st unit :=
  if negb (names_eqb (k_name k) (pc_key c)) then fail EInvalidArg
  else fun p => (wBe (be_addCert c (p_be p))
                   (put_key (mkK (k_uid k) (k_owner k) (k_name k) (k_bits k) (nadd (pc_name c) (k_cnames k)) (nset (pc_name c) c (k_certs k)) (k_def k)) p), Ok tt).
Definition cc_check (k : kimpl) (cn : nm) : st unit := fun p =>
  (p, match extractKeyNameFromCertName cn with Ok x => if names_eqb (k_name k) x then Ok tt else Err EInvalidArg | Err e => Err e end).
(* certificate-container.cpp:70-87 remove *)
Definition cc_remove (k : kimpl) (cn : nm) : st unit :=
  do _ <- cc_check k cn;
  do _ <- (fun p => if nmem cn (k_cnames k)
                    then (put_key (mkK (k_uid k) (k_owner k) (k_name k) (k_bits k) (nrem cn (k_cnames k)) (ndel cn (k_certs k)) (k_def k)) p, Ok tt)
                    else if has cn (k_certs k) then (p, Err EAssert) else (p, Ok tt));
  modbe (be_removeCert cn).
(* certificate-container.cpp:89-103 get *)
Definition cc_get (k : kimpl) (cn : nm) : st pcert :=
  do _ <- cc_check k cn;
  match nget cn (k_certs k) with
  | Some c => ret c
  | None => do c <- asks (be_getCert cn);
            do _ <- (fun p => (put_key (mkK (k_uid k) (k_owner k) (k_name k) (k_bits k) (k_cnames k) (nset cn c (k_certs k)) (k_def k)) p, Ok tt)); ret c
  end.
(* key-impl.cpp:51-62 addCertificate *)
Definition key_addCert (h : N) (c : pcert) : st unit :=
  with_key h (fun k => do _ <- assert_ (certs_consistent k); if bytes_eqb (k_bits k) (pc_bits c) then cc_add k c else fail EInvalidArg).
(* key-impl.cpp:64-74 removeCertificate *)
Definition key_removeCert (h : N) (cn : nm) : st unit :=
  with_key h (fun k => do _ <- assert_ (certs_consistent k);
    let k' := match k_def k with
              | Some d => if names_eqb (pc_name d) cn then mkK (k_uid k) (k_owner k) (k_name k) (k_bits k) (k_cnames k) (k_certs k) None else k
              | None => k end in
    fun p => cc_remove k' cn (put_key k' p)).
(* key-impl.hpp:87-92 getCertificate *)
Definition key_getCert (h : N) (cn : nm) : st pcert := with_key h (fun k => do _ <- assert_ (certs_consistent k); cc_get k cn).
Definition key_certNames (h : N) : st (list nm) := with_key h (fun k => do _ <- assert_ (certs_consistent k); ret (k_cnames k)).
(* key-impl.cpp:76-86 setDefaultCert *)
Definition key_setDef (h : N) (c : pcert) : st pcert :=
  with_key h (fun k => do _ <- assert_ (certs_consistent k);
    do _ <- (fun p => (put_key (mkK (k_uid k) (k_owner k) (k_name k) (k_bits k) (k_cnames k) (k_certs k) (Some c)) p, Ok tt));
    do _ <- trybe (be_setDefCert (k_name k) (pc_name c)); ret c).
(* key-impl.hpp:101-112 setDefaultCertificate, by name and by certificate; the latter does not compare the public keys *)
Definition key_setDefaultCertName (h : N) (cn : nm) : st pcert := do c <- with_key h (fun k => cc_get k cn); key_setDef h c.
Definition key_setDefaultCert (h : N) (c : pcert) : st unit := do _ <- with_key h (fun k => cc_add k c); do _ <- key_setDef h c; ret tt.
(* key-impl.cpp:88-101 getDefaultCertificate *)
Definition key_getDefaultCert (h : N) : st pcert :=
  with_key h (fun k => do _ <- assert_ (certs_consistent k);
    do c <- (match k_def k with
             | Some c => ret c
             | None => do c <- asks (be_getDefCert (k_name k));
                       do _ <- (fun p => (put_key (mkK (k_uid k) (k_owner k) (k_name k) (k_bits k) (k_cnames k) (k_certs k) (Some c)) p, Ok tt)); ret c
             end);
    do d <- asks (be_getDefCert (k_name k));
    do _ <- assert_ (fun _ => names_eqb (pc_name c) (pc_name d)); ret c).

(* the calls of a user of the PIB and what they answer *)
Inductive pop :=
| PAddId (n : nm) | PRemoveId (n : nm) | PGetId (n : nm) | PSetDefId (n : nm) | PGetDefId | PIdNames | PReset | PReopen | PIdName (h : N) | PKeyInfo (k : N)
| PAddKey (h : N) (bits : bytes) (kn : nm) | PRemoveKey (h : N) (kn : nm) | PGetKey (h : N) (kn : nm) | PKeyNames (h : N)
| PSetDefKey (h : N) (kn : nm) | PSetDefKeyBits (h : N) (bits : bytes) (kn : nm) | PGetDefKey (h : N)
| PAddCert (k : N) (c : pcert) | PRemoveCert (k : N) (cn : nm) | PGetCert (k : N) (cn : nm) | PCertNames (k : N)
| PSetDefCertName (k : N) (cn : nm) | PSetDefCert (k : N) (c : pcert) | PGetDefCert (k : N).
Inductive pans := AUnit | AName (n : nm) | AInfo (n : nm) (bits : bytes) | AId (h : N) | AKey (h : N) | ACert (c : pcert) | ANames (l : list nm).
Definition as_ {A} (f : A -> pans) (m : st A) : st pans := fun p => match m p with (p', Ok a) => (p', Ok (f a)) | (p', Err e) => (p', Err e) end.
Definition unit_ : unit -> pans := fun _ => AUnit.
Definition pb_step (o : pop) : st pans :=
  match o with
  | PAddId n => as_ AId (pb_addIdentity n) | PRemoveId n => as_ unit_ (pb_removeIdentity n) | PGetId n => as_ AId (pb_getIdentity n)
  | PSetDefId n => as_ AId (pb_setDefaultIdentity n) | PGetDefId => as_ AId pb_getDefaultIdentity | PIdNames => as_ ANames pb_idNames | PReset => as_ unit_ pb_reset
  | PReopen => as_ unit_ pb_reopen
  | PIdName h => as_ AName (with_id h (fun i => ret (i_name i)))                          (* identity.cpp getName *)
  | PKeyInfo k => with_key k (fun x => ret (AInfo (k_name x) (k_bits x)))                 (* key.cpp:35-39, 53-57 getName, getPublicKey *)
  | PAddKey h b kn => as_ AKey (id_addKey h b kn) | PRemoveKey h kn => as_ unit_ (id_removeKey h kn) | PGetKey h kn => as_ AKey (id_getKey h kn)
  | PKeyNames h => as_ ANames (id_keyNames h)
  | PSetDefKey h kn => as_ AKey (id_setDefaultKey h kn) | PSetDefKeyBits h b kn => as_ AKey (id_setDefaultKeyBits h b kn) | PGetDefKey h => as_ AKey (id_getDefaultKey h)
  | PAddCert k c => as_ unit_ (key_addCert k c) | PRemoveCert k cn => as_ unit_ (key_removeCert k cn) | PGetCert k cn => as_ ACert (key_getCert k cn)
  | PCertNames k => as_ ANames (key_certNames k)
  | PSetDefCertName k cn => as_ ACert (key_setDefaultCertName k cn) | PSetDefCert k c => as_ unit_ (key_setDefaultCert k c) | PGetDefCert k => as_ ACert (key_getDefaultCert k)
  end.
(* a history of calls *)
Fixpoint pb_run (l : list pop) (p : pib) : pib := match l with [] => p | o :: l' => pb_run l' (fst (pb_step o p)) end.
