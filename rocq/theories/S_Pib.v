(* What the documentation of Pib, Identity, Key (pib.hpp, identity.hpp, key.hpp) and of their back end (pib-impl.hpp) promises, written without looking at the containers and caches:
   a tree of identities, keys and certificates with a default at each level, and handles that refer to a name until the entry is removed or replaced. *)
From Verif Require Import Base M_Tlv M_Name S_Name M_Ims M_Pib.
From Coq Require Import String.
Open Scope list_scope.
Open Scope N_scope.

Definition byte_dec : forall a b : Byte.byte, {a = b} + {a <> b} := Byte.byte_eq_dec.
Definition key_dec : forall a b : key, {a = b} + {a <> b}.
Proof. decide equality; [apply (list_eq_dec byte_dec)|apply N.eq_dec]. Defined.
Definition nm_dec : forall a b : nm, {a = b} + {a <> b} := list_eq_dec key_dec.
Definition is (a b : nm) : bool := if nm_dec a b then true else false.
Definition isopt (a : option nm) (b : nm) : bool := match a with Some x => is x b | None => false end.

(* /<identity>/KEY/<key id> *)
Definition identity_of_key (kn : nm) : option nm := match rev kn with _ :: k :: r => if key_dec k KEYC then Some (rev r) else None | _ => None end.
(* /<identity>/KEY/<key id>/<issuer>/<version> *)
Definition key_of_cert (cn : nm) : option nm := match rev cn with _ :: _ :: i :: k :: r => if key_dec k KEYC then Some (rev (i :: k :: r)) else None | _ => None end.

Record tree := mkT {
  t_id : nm -> bool; t_def : option nm;                                                    (* identities, default identity *)
  t_key : nm -> option bytes; t_defK : nm -> option nm;                                    (* public keys by key name, default key of an identity *)
  t_cert : nm -> option pcert; t_defC : nm -> option nm;                                   (* certificates by name, default certificate of a key *)
  t_hid : N -> option nm; t_hkey : N -> option nm; t_used : N -> bool }.                   (* what the handles refer to; the handles given out so far *)
Definition upd {A} (f : nm -> A) (n : nm) (v : A) : nm -> A := fun x => if nm_dec x n then v else f x.
Definition updN {A} (f : N -> A) (n : N) (v : A) : N -> A := fun x => if N.eq_dec x n then v else f x.
Definition emptyT : tree := mkT (fun _ => false) None (fun _ => None) (fun _ => None) (fun _ => None) (fun _ => None) (fun _ => None) (fun _ => None) (fun _ => false).
Definition or_else {A} (a : option A) (b : A) : option A := match a with Some _ => a | None => Some b end.
Definition keep {A} (b : bool) (a : option A) : option A := if b then a else None.

(* the identity exists from now on; it becomes the default if there is none *)
Definition t_addId (n : nm) (t : tree) : tree :=
  mkT (upd (t_id t) n true) (or_else (t_def t) n) (t_key t) (t_defK t) (t_cert t) (t_defC t) (t_hid t) (t_hkey t) (t_used t).
(* the identity, its keys and their certificates are gone, and so are the handles *)
Definition under (n kn : nm) : bool := isopt (identity_of_key kn) n.
Definition cert_under (n cn : nm) : bool := match key_of_cert cn with Some kn => under n kn | None => false end.
Definition t_removeId (n : nm) (t : tree) : tree :=
  mkT (upd (t_id t) n false) (keep (negb (isopt (t_def t) n)) (t_def t))
    (fun kn => keep (negb (under n kn)) (t_key t kn)) (upd (t_defK t) n None)
    (fun cn => keep (negb (cert_under n cn)) (t_cert t cn)) (fun kn => keep (negb (under n kn)) (t_defC t kn))
    (fun h => keep (negb (isopt (t_hid t h) n)) (t_hid t h))
    (fun h => keep (negb (match t_hkey t h with Some kn => under n kn | None => false end)) (t_hkey t h)) (t_used t).
(* the key has these bits from now on; it becomes the default key of its identity if there is none; handles to a key that it replaces are invalid *)
Definition drop_handles (kn : nm) (t : tree) : tree :=
  mkT (t_id t) (t_def t) (t_key t) (t_defK t) (t_cert t) (t_defC t) (t_hid t) (fun h => keep (negb (isopt (t_hkey t h) kn)) (t_hkey t h)) (t_used t).
Definition t_ensureKey (i kn : nm) (bits : bytes) (t : tree) : tree :=
  let t := t_addId i t in
  mkT (t_id t) (t_def t) (upd (t_key t) kn (Some bits)) (upd (t_defK t) i (or_else (t_defK t i) kn)) (t_cert t) (t_defC t) (t_hid t) (t_hkey t) (t_used t).
Definition t_addKey (i kn : nm) (bits : bytes) (t : tree) : tree := drop_handles kn (t_ensureKey i kn bits t).
(* the key and its certificates are gone; if it was the default there is no default any more *)
Definition t_removeKey (i kn : nm) (t : tree) : tree :=
  drop_handles kn (mkT (t_id t) (t_def t) (upd (t_key t) kn None) (upd (t_defK t) i (keep (negb (isopt (t_defK t i) kn)) (t_defK t i)))
    (fun cn => keep (negb (isopt (key_of_cert cn) kn)) (t_cert t cn)) (upd (t_defC t) kn None) (t_hid t) (t_hkey t) (t_used t)).
Definition t_setDefK (i kn : nm) (t : tree) : tree := mkT (t_id t) (t_def t) (t_key t) (upd (t_defK t) i (Some kn)) (t_cert t) (t_defC t) (t_hid t) (t_hkey t) (t_used t).
Definition t_setDef (n : nm) (t : tree) : tree := mkT (t_id t) (Some n) (t_key t) (t_defK t) (t_cert t) (t_defC t) (t_hid t) (t_hkey t) (t_used t).
Definition t_setDefC (kn cn : nm) (t : tree) : tree := mkT (t_id t) (t_def t) (t_key t) (t_defK t) (t_cert t) (upd (t_defC t) kn (Some cn)) (t_hid t) (t_hkey t) (t_used t).
(* the certificate of this name is this one from now on; the key exists already and keeps its bits.  Defaults that are missing are filled in at every level. *)
Definition t_addCert (i kn : nm) (c : pcert) (t : tree) : tree :=
  let t := t_addId i t in
  mkT (t_id t) (t_def t) (t_key t) (upd (t_defK t) i (or_else (t_defK t i) kn)) (upd (t_cert t) (pc_name c) (Some c)) (upd (t_defC t) kn (or_else (t_defC t kn) (pc_name c)))
    (t_hid t) (t_hkey t) (t_used t).
Definition t_removeCert (kn cn : nm) (t : tree) : tree :=
  mkT (t_id t) (t_def t) (t_key t) (t_defK t) (upd (t_cert t) cn None) (upd (t_defC t) kn (keep (negb (isopt (t_defC t kn) cn)) (t_defC t kn))) (t_hid t) (t_hkey t) (t_used t).
Definition t_no_handles (t : tree) : tree := mkT (t_id t) (t_def t) (t_key t) (t_defK t) (t_cert t) (t_defC t) (fun _ => None) (fun _ => None) (t_used t).

(* what a call answers: an exception, a value, the handle that refers to a name, or the names that satisfy a test *)
Inductive reply := RErr (e : err) | RAns (a : pans) | RId (n : nm) | RKey (kn : nm) | RNames (f : nm -> bool).
Definition on_id (t : tree) (h : N) (f : nm -> tree * reply) : tree * reply := match t_hid t h with Some i => f i | None => (t, RErr EDomain) end.
Definition on_key (t : tree) (h : N) (f : nm -> tree * reply) : tree * reply := match t_hkey t h with Some kn => f kn | None => (t, RErr EDomain) end.
(* a call on an identity about a key of another identity is refused, and so is one on a key about a certificate of another key *)
Definition owned (t : tree) (i kn : nm) (r : tree * reply) : tree * reply := if isopt (identity_of_key kn) i then r else (t, RErr EInvalidArg).
Definition ownedC (t : tree) (kn cn : nm) (r : tree * reply) : tree * reply := if isopt (key_of_cert cn) kn then r else (t, RErr EInvalidArg).
Definition exists_ {A} (t : tree) (x : option A) (f : A -> tree * reply) : tree * reply := match x with Some a => f a | None => (t, RErr ERuntime) end.
Definition identity_of_key' (kn : nm) : nm := match identity_of_key kn with Some i => i | None => [] end.
Definition isome {A} (x : option A) : bool := match x with Some _ => true | None => false end.

Definition sem (o : pop) (t : tree) : tree * reply :=
  match o with
  | PAddId n => (if t_id t n then t else t_addId n t, RId n)                               (* "the newly created identity will be set as the default" *)
  | PRemoveId n => (t_removeId n t, RAns AUnit)
  | PGetId n => if t_id t n then (t, RId n) else (t, RErr ERuntime)
  | PSetDefId n => (t_setDef n (t_addId n t), RId n)
  | PGetDefId => exists_ t (t_def t) (fun d => (t, RId d))
  | PIdNames => (t, RNames (t_id t))
  | PReset => (mkT (t_id emptyT) (t_def emptyT) (t_key emptyT) (t_defK emptyT) (t_cert emptyT) (t_defC emptyT) (t_hid emptyT) (t_hkey emptyT) (t_used t), RAns AUnit)
  | PReopen => (t_no_handles t, RAns AUnit)
  | PIdName h => on_id t h (fun i => (t, RAns (AName i)))
  | PKeyInfo k => on_key t k (fun kn => exists_ t (t_key t kn) (fun b => (t, RAns (AInfo kn b))))
  | PAddKey h b kn => on_id t h (fun i => owned t i kn (t_addKey i kn b t, RKey kn))
  | PRemoveKey h kn => on_id t h (fun i => owned t i kn (t_removeKey i kn t, RAns AUnit))
  | PGetKey h kn => on_id t h (fun i => owned t i kn (exists_ t (t_key t kn) (fun _ => (t, RKey kn))))
  | PKeyNames h => on_id t h (fun i => (t, RNames (fun kn => isome (t_key t kn) && isopt (identity_of_key kn) i)))
  | PSetDefKey h kn => on_id t h (fun i => owned t i kn (exists_ t (t_key t kn) (fun _ => (t_setDefK i kn t, RKey kn))))
  | PSetDefKeyBits h b kn => on_id t h (fun i => owned t i kn (t_setDefK i kn (t_addKey i kn b t), RKey kn))
  | PGetDefKey h => on_id t h (fun i => exists_ t (t_defK t i) (fun kn => (t, RKey kn)))
  | PAddCert k c => on_key t k (fun kn => exists_ t (t_key t kn) (fun b =>
      if list_eq_dec byte_dec b (pc_bits c) then ownedC t kn (pc_name c) (t_addCert (identity_of_key' kn) kn c t, RAns AUnit) else (t, RErr EInvalidArg)))
  | PRemoveCert k cn => on_key t k (fun kn => ownedC t kn cn (t_removeCert kn cn t, RAns AUnit))
  | PGetCert k cn => on_key t k (fun kn => ownedC t kn cn (exists_ t (t_cert t cn) (fun c => (t, RAns (ACert c)))))
  | PCertNames k => on_key t k (fun kn => (t, RNames (fun cn => isome (t_cert t cn) && isopt (key_of_cert cn) kn)))
  | PSetDefCertName k cn => on_key t k (fun kn => ownedC t kn cn (exists_ t (t_cert t cn) (fun c => (t_setDefC kn cn t, RAns (ACert c)))))
  | PSetDefCert k c => on_key t k (fun kn => ownedC t kn (pc_name c) (t_setDefC kn (pc_name c) (t_addCert (identity_of_key' kn) kn c t), RAns AUnit))
  | PGetDefCert k => on_key t k (fun kn => exists_ t (t_defC t kn) (fun cn => exists_ t (t_cert t cn) (fun c => (t, RAns (ACert c)))))
  end.
(* The answer a is the one described by r.  A handle is the one that refers to the name already, or, if there is none, one that was never given out. *)
Definition handle_for (f : N -> option nm) (used : N -> bool) (n : nm) (h : N) : Prop := f h = Some n \/ (used h = false /\ forall h', f h' <> Some n).
Definition fits (t : tree) (r : reply) (a : res pans) : Prop :=
  match r, a with
  | RErr e, Err e' => e = e'
  | RAns x, Ok y => x = y
  | RId n, Ok (AId h) => handle_for (t_hid t) (t_used t) n h
  | RKey kn, Ok (AKey h) => handle_for (t_hkey t) (t_used t) kn h
  | RNames f, Ok (ANames l) => forall x, In x l <-> f x = true
  | _, _ => False
  end.
(* from now on the handle that was answered refers to the name *)
Definition noted (t : tree) (r : reply) (a : res pans) : tree :=
  match r, a with
  | RId n, Ok (AId h) => mkT (t_id t) (t_def t) (t_key t) (t_defK t) (t_cert t) (t_defC t) (updN (t_hid t) h (Some n)) (t_hkey t) (updN (t_used t) h true)
  | RKey kn, Ok (AKey h) => mkT (t_id t) (t_def t) (t_key t) (t_defK t) (t_cert t) (t_defC t) (t_hid t) (updN (t_hkey t) h (Some kn)) (updN (t_used t) h true)
  | _, _ => t
  end.
(* every call of the history is answered as documented *)
Fixpoint documented (l : list pop) (t : tree) (p : pib) : Prop :=
  match l with
  | [] => True
  | o :: l' => let (t1, r) := sem o t in let (p', a) := pb_step o p in fits t1 r a /\ documented l' (noted t1 r a) p'
  end.
(* the certificates a program can have: made from a packet, so that the name is that of a certificate *)
Definition real_cert (c : pcert) : Prop := key_of_cert (pc_name c) <> None.
Definition real_op (o : pop) : Prop := match o with PAddCert _ c | PSetDefCert _ c => real_cert c | _ => True end.
(* the calls that are known to be answered wrongly, described on the documented state:
   removing a key of an identity whose default key is another one,
   making a default of a certificate of another public key,
   replacing the default certificate by another one of the same name *)
Definition careful_op (t : tree) (o : pop) : Prop :=
  match o with
  | PRemoveKey h kn => forall i, t_hid t h = Some i -> identity_of_key kn = Some i -> t_defK t i = None \/ t_defK t i = Some kn
  | PSetDefCert k c => forall kn, t_hkey t k = Some kn -> key_of_cert (pc_name c) = Some kn -> t_key t kn = Some (pc_bits c)
  | PAddCert k c => forall kn c', t_hkey t k = Some kn -> key_of_cert (pc_name c) = Some kn -> t_defC t kn = Some (pc_name c) -> t_cert t (pc_name c) = Some c' -> c' = c
  | _ => True
  end.
Fixpoint careful (l : list pop) (t : tree) (p : pib) : Prop :=
  match l with
  | [] => True
  | o :: l' => careful_op t o /\ (let (t1, r) := sem o t in let (p', a) := pb_step o p in careful l' (noted t1 r a) p')
  end.
