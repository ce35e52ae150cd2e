(* Model of security/validation-policy-config.cpp, validator-config/{filter,checker,rule,name-relation}.cpp, validation-policy-simple-hierarchy.cpp, and
   extractIdentityNameFromKeyLocator in validation-policy.cpp.  A configuration is the property tree that boost::property_tree::read_info makes of the text
   (read_info itself is not modelled).  A name is the list of its components; std::regex, the URI format and the stack are the parameters of M_Regex.  Error messages are
   left out. *)
From Verif Require Import Base M_Tlv M_Str M_Name S_Name M_Packet M_Ims M_Signer M_IntPolicy M_Regex M_Pib M_Validator.
From Coq Require Import ZArith String.
Open Scope list_scope.
Open Scope N_scope.

(* boost::property_tree::ptree: the data of a node and its children in order, with their keys *)
Inductive cfg := Cfg (d : bytes) (l : list (bytes * cfg)).
Definition dat (c : cfg) : bytes := match c with Cfg d _ => d end.
Definition kids (c : cfg) : list (bytes * cfg) := match c with Cfg _ l => l end.
(* boost::iequals, in the "C" locale *)
Definition upper (c : byte) : N := if (97 <=? bn c) && (bn c <=? 122) then bn c - 32 else bn c.
Fixpoint iequals (a b : bytes) : bool :=
  match a, b with
  | [], [] => true
  | x :: a', y :: b' => (upper x =? upper y) && iequals a' b'
  | _, _ => false
  end.

(* name-relation.hpp:33-37 *)
Inductive relation := EQUAL | IS_PREFIX_OF | IS_STRICT_PREFIX_OF.
(* Names compare by type and value: operator== and isPrefixOf (C13) *)
Definition cname := list comp.
Definition cn_eqb (a b : cname) : bool := names_eqb (map ckey a) (map ckey b).
Definition cn_prefix (a b : cname) : bool := prefixb (map ckey a) (map ckey b).
(* name-relation.cpp:42-54 *)
Definition checkNameRelation (r : relation) (a b : cname) : bool :=
  match r with
  | EQUAL => cn_eqb a b
  | IS_PREFIX_OF => cn_prefix a b
  | IS_STRICT_PREFIX_OF => cn_prefix a b && (nlen a <? nlen b)
  end.
(* name-relation.cpp:56-71 *)
Definition getNameRelation (s : bytes) : res relation :=
  if iequals s (str "equal") then Ok EQUAL
  else if iequals s (str "is-prefix-of") then Ok IS_PREFIX_OF
  else if iequals s (str "is-strict-prefix-of") then Ok IS_STRICT_PREFIX_OF
  else Err ERuntime.

(* ---- what a policy looks at in a packet ---- *)
(* Data; an Interest in the signed Interest format v0.3, with its SignatureInfo; an Interest in the format v0.2 *)
Inductive ppkt := PData (n : name) (si : siginfo) | PInt3 (n : name) (si : siginfo) | PInt2 (n : name).
Definition pp_name (p : ppkt) : cname := match p with PData n _ | PInt3 n _ | PInt2 n => n_comps n end.
Definition pp_isData (p : ppkt) : bool := match p with PData _ _ => true | _ => false end.
(* signing-info.cpp:31-44 *)
Definition digestComps : cname := map (fun s => comp_ofString (str s)) ["localhost"; "identity"; "digest-sha256"]%string.
Definition hmacComps : cname := map (fun s => comp_ofString (str s)) ["localhost"; "identity"; "hmac"]%string.
(* validation-policy.cpp:61-79, M_IntPolicy.getKeyLocatorName with the components of the name *)
Definition klName (si : siginfo) : pstep cname :=
  if match si_type si with Some t => t =? tDigestSha256 | None => false end then PGo digestComps
  else match si_key si with
       | Some k => match kl_loc k with KlName n => PGo (n_comps n) | _ => PFail end
       | None => PFail
       end.
(* validation-policy.cpp:111-131; the components from the last to the fourth last *)
Fixpoint findKey (k : nat) (r : cname) : res cname :=
  match k, r with
  | S k', c :: r' => if key_eqb (ckey c) KEYC then Ok (rev r') else findKey k' r'
  | _, _ => Err ETlv (* KeyLocator::Error *)
  end.
Definition extractIdentity (kl : cname) : res cname :=
  if cn_eqb kl digestComps || cn_eqb kl hmacComps then Ok kl else findKey 4 (rev kl).
(* the SignatureInfo of a packet: validation-policy.cpp:82-108 *)
Definition pp_sigInfo (p : ppkt) : res (pstep siginfo) :=
  match p with
  | PData _ si => Ok (PGo si)
  | PInt3 _ si => getSignatureInfo (V03 si)
  | PInt2 n => getSignatureInfo (V02 n)
  end.
(* certificate-request.hpp:44-48, as seen by the validator *)
Definition certRequest (kl : cname) : creq := newRequest (mkQ (map ckey kl) true false).
(* tlv::SignatureTypeValue(getSignatureType()): a uint16_t *)
Definition sigValue (si : siginfo) : N := match si_type si with Some t => t mod 65536 | None => 65535 end.

(* ---- ValidationPolicySimpleHierarchy ----  validation-policy-simple-hierarchy.cpp:26-82 *)
Definition simple_check (p : ppkt) : pans :=
  match pp_sigInfo p with
  | Err e => PAThrow e
  | Ok PFail => PAFail VE_MALFORMED_SIGNATURE
  | Ok (PGo si) =>
      match klName si with
      | PFail => PAFail (VE_OTHER 8) (* INVALID_KEY_LOCATOR *)
      | PGo kl =>
          match extractIdentity kl with
          | Err ETlv => PAFail (VE_OTHER 8)
          | Err e => PAThrow e
          | Ok i => if cn_prefix i (pp_name p) then PARequest (certRequest kl) else PAFail VE_POLICY_ERROR
          end
      end
  end.

(* ---- filters, checkers, rules ---- *)
Section VConfig.
Variable re_count : bytes -> option N.
Variable re_match : bytes -> bytes -> option (list bytes).
Variable uf : uri_format.
Variable stack : nat.
Notation rt_new := (rt_new re_count).
Notation rt_match := (rt_match re_match uf stack).

(* The part of the name that filters and checkers look at: filter.cpp:34-62, checker.cpp:77-99 *)
Definition lastComp (n : cname) : option comp := match rev n with c :: _ => Some c | [] => None end.
Definition subject (p : ppkt) : option cname :=
  let n := pp_name p in
  match p with
  | PData _ _ => Some n
  | PInt3 _ _ => match lastComp n with Some c => if c_type c =? tParametersSha256DigestComponent then Some (removelast n) else None | None => None end
  | PInt2 _ => if nlen n <? 2 then None else Some (removelast (removelast n))
  end.
(* objects with a Regex keep the captures of the last match, so they are returned *)
Inductive filter := FRel (n : cname) (r : relation) | FRegex (t : rtop).
(* filter.cpp:34-85 *)
Definition fl_match (p : ppkt) (f : filter) : filter * res bool :=
  match subject p with
  | None => (f, Ok false)
  | Some n => match f with
              | FRel m r => (f, Ok (checkNameRelation r m n))
              | FRegex t => match rt_match n t with Ok (b, t') => (FRegex t', Ok b) | Err e => (f, Err e) end
              end
  end.
Inductive ckind := CAny | CRel (n : cname) (r : relation) | CRegex (t : rtop) | CHyper (tp tk : rtop) (r : relation).
Record checker := mkCk { ck_sig : N; ck_kind : ckind }.
(* checker.cpp:102-174 checkNames *)
Definition ck_names (n kl : cname) (k : ckind) : ckind * res bool :=
  match k with
  | CAny => (k, Ok true)
  | CRel m r => (k, let! i := extractIdentity kl in Ok (checkNameRelation r m i))
  | CRegex t => match rt_match kl t with Ok (b, t') => (CRegex t', Ok b) | Err e => (k, Err e) end
  | CHyper tp tk r =>
      match rt_match n tp with
      | Err e => (k, Err e)
      | Ok (false, tp') => (CHyper tp' tk r, Ok false)
      | Ok (true, tp') =>
          match rt_match kl tk with
          | Err e => (CHyper tp' tk r, Err e)
          | Ok (false, tk') => (CHyper tp' tk' r, Ok false)
          | Ok (true, tk') => (CHyper tp' tk' r, let! ke := rt_expand [] tk' in let! pe := rt_expand [] tp' in Ok (checkNameRelation r ke pe))
          end
      end
  end.
(* checker.cpp:67-100 check *)
Definition ck_check (p : ppkt) (sig : N) (kl : cname) (c : checker) : checker * res bool :=
  if negb (sig =? ck_sig c) then (c, Ok false)
  else match subject p with
       | None => (c, Ok false)
       | Some n => let r := ck_names n kl (ck_kind c) in (mkCk (ck_sig c) (fst r), snd r)
       end.
(* the loops of rule.cpp:63-69 and 85-91: up to the first that answers true, or throws *)
Fixpoint first_true {A} (f : A -> A * res bool) (l : list A) : list A * res bool :=
  match l with
  | [] => ([], Ok false)
  | x :: l' =>
      match f x with
      | (x', Ok false) => let r := first_true f l' in (x' :: fst r, snd r)
      | (x', r) => (x' :: l', r)
      end
  end.
Record rule := mkRule { rl_data : bool; rl_filters : list filter; rl_checkers : list checker }.
(* rule.cpp:50-71 match; the policy asks only rules of the type of the packet *)
Definition rl_match (p : ppkt) (r : rule) : rule * res bool :=
  match rl_filters r with
  | [] => (r, Ok true)
  | l => let x := first_true (fl_match p) l in (mkRule (rl_data r) (fst x) (rl_checkers r), snd x)
  end.
(* 73-101 check *)
Definition rl_check (p : ppkt) (sig : N) (kl : cname) (r : rule) : rule * res bool :=
  let x := first_true (ck_check p sig kl) (rl_checkers r) in (mkRule (rl_data r) (rl_filters r) (fst x), snd x).

(* ---- construction from a configuration ---- *)
(* catch (const Regex::Error&), rethrown as Error; other errors pass.  Both are std::runtime_error *)
(* filter.cpp:87-151 *)
Definition fl_create (c : cfg) : res filter :=
  match kids c with
  | [] => Err ERuntime
  | (k1, v1) :: l =>
      if negb (iequals k1 (str "type")) then Err ERuntime
      else if negb (iequals (dat v1) (str "name")) then Err ERuntime
      else match l with
           | [] => Err ERuntime
           | (k2, v2) :: l2 =>
               if iequals k2 (str "name") then
                 let! n := (match nm_fromUri (dat v2) with Err ETlv => Err ERuntime | x => x end) in
                 match l2 with
                 | (k3, v3) :: l3 =>
                     if negb (iequals k3 (str "relation")) then Err ERuntime
                     else let! r := getNameRelation (dat v3) in
                          match l3 with [] => Ok (FRel (n_comps n) r) | _ => Err ERuntime end
                 | [] => Err ERuntime
                 end
               else if iequals k2 (str "regex") then
                 match l2 with [] => let! t := rt_new (dat v2) [] in Ok (FRegex t) | _ => Err ERuntime end
               else Err ERuntime
           end
  end.
(* checker.cpp:198-217 *)
Definition parseSigType (s : bytes) : res N :=
  if iequals s (str "rsa-sha256") then Ok 1
  else if iequals s (str "ecdsa-sha256") then Ok 3
  else if iequals s (str "sha256") then Ok 0
  else Err ERuntime.
(* an optional sig-type, ecdsa-sha256 by default: checker.cpp:226-232, 258-264 *)
Definition sigTypeProp (l : list (bytes * cfg)) : res (N * list (bytes * cfg)) :=
  match l with
  | (k, v) :: l' => if iequals k (str "sig-type") then let! s := parseSigType (dat v) in Ok (s, l') else Ok (3, l)
  | [] => Ok (3, l)
  end.
(* the property k, and what follows: Expecting <...> *)
Definition expect (k : bytes) (l : list (bytes * cfg)) : res (bytes * list (bytes * cfg)) :=
  match l with (k', v) :: l' => if iequals k' k then Ok (dat v, l') else Err ERuntime | [] => Err ERuntime end.
Definition done (l : list (bytes * cfg)) : res unit := match l with [] => Ok tt | _ => Err ERuntime end.
(* checker.cpp:341-393: the arguments of a constructor call may be evaluated in any order; both constructors of Regex throw only Regex::Error, or are undefined *)
Definition hyper_create (c : cfg) : res ckind :=
  let! kr := expect (str "k-regex") (kids c) in
  let! ke := expect (str "k-expand") (snd kr) in
  let! h := expect (str "h-relation") (snd ke) in
  let! pr := expect (str "p-regex") (snd h) in
  let! pe := expect (str "p-expand") (snd pr) in
  let! _ := done (snd pe) in
  let! r := getNameRelation (fst h) in
  let! tp := rt_new (fst pr) (fst pe) in
  let! tk := rt_new (fst kr) (fst ke) in
  Ok (CHyper tp tk r).
(* checker.cpp:275-398 createKeyLocatorChecker, createKeyLocatorNameChecker *)
Definition kl_create (c : cfg) : res ckind :=
  let! t := expect (str "type") (kids c) in
  if negb (iequals (fst t) (str "name")) then Err ERuntime
  else match snd t with
       | [] => Err ERuntime
       | (k, v) :: l =>
           if iequals k (str "name") then
             let! n := (match nm_fromUri (dat v) with Err ETlv => Err ERuntime | x => x end) in
             let! r := expect (str "relation") l in
             let! rel := getNameRelation (fst r) in
             let! _ := done (snd r) in Ok (CRel (n_comps n) rel)
           else if iequals k (str "regex") then
             let! _ := done l in let! t := rt_new (dat v) [] in Ok (CRegex t)
           else if iequals k (str "hyper-relation") then hyper_create v (* what follows is ignored *)
           else Err ERuntime
       end.
(* checker.cpp:176-196, 219-273 *)
Definition ck_create (c : cfg) : res checker :=
  let! t := expect (str "type") (kids c) in
  if iequals (fst t) (str "customized") then
    let! s := sigTypeProp (snd t) in
    match snd s with
    | (k, v) :: l =>
        if iequals k (str "key-locator") then let! x := kl_create v in let! _ := done l in Ok (mkCk (fst s) x)
        else if fst s =? 0 then Ok (mkCk 0 CAny) else Err ERuntime
    | [] => if fst s =? 0 then Ok (mkCk 0 CAny) else Err ERuntime
    end
  else if iequals (fst t) (str "hierarchical") then
    let! s := sigTypeProp (snd t) in
    let! _ := done (snd s) in
    let! tp := rt_new (str "^(<>*)$") (str "\1") in
    let! tk := rt_new (str "^(<>*)<KEY><>{1,3}$") (str "\1") in
    Ok (mkCk (fst s) (CHyper tp tk IS_PREFIX_OF))
  else Err ERuntime.
(* rule.cpp:136-156: the filters up to the first checker, then the checkers up to the end *)
Fixpoint rl_checks (l : list (bytes * cfg)) : res (list checker) :=
  match l with
  | [] => Ok []
  | (k, v) :: l' => if iequals k (str "checker") then let! c := ck_create v in let! x := rl_checks l' in Ok (c :: x) else Err ERuntime
  end.
Fixpoint rl_filts (l : list (bytes * cfg)) : res (list filter * list (bytes * cfg)) :=
  match l with
  | [] => Ok ([], [])
  | (k, v) :: l' =>
      if iequals k (str "filter") then let! f := fl_create v in let! x := rl_filts l' in Ok (f :: fst x, snd x)
      else if iequals k (str "checker") then Ok ([], l) else Err ERuntime
  end.
(* rule.cpp:103-167 *)
Definition rl_create (c : cfg) : res rule :=
  let! i := expect (str "id") (kids c) in
  let! u := expect (str "for") (snd i) in
  let! d := (if iequals (fst u) (str "data") then Ok true else if iequals (fst u) (str "interest") then Ok false else Err ERuntime) in
  let! f := rl_filts (snd u) in
  let! k := rl_checks (snd f) in
  match k with [] => Err ERuntime | _ => Ok (mkRule d (fst f) k) end.

(* ---- trust anchors in a configuration ---- *)
(* what load() asks of the validator, in order *)
Inductive leff := EResetAnchors | EResetVerified | EAnchorFile (path : bytes) (refresh : Z) (isDir : bool) | EAnchorText (base64 : bytes).
(* boost::lexical_cast<int32_t> *)
Definition cast_i32 (s : bytes) : option Z :=
  let neg := match s with c :: _ => beqb c x2d | [] => false end in
  let d := match s with c :: s' => if beqb c x2d || beqb c cPlus then s' else s | [] => [] end in
  match d, snd (span_digits d) with
  | _ :: _, [] => let n := Z.of_N (fst (read_digits d 0)) in let z := if neg then Z.opp n else n in
                  if ((- 2 ^ 31 <=? z) && (z <? 2 ^ 31))%Z then Some z else None
  | _, _ => None
  end.
Definition NS_MAX : Z := 2 ^ 63 - 1.
Definition nsHour : Z := 3600000000000.
(* validation-policy-config.cpp:176-225 getRefreshPeriod: the last character of an empty string is read; conversion to nanoseconds may overflow *)
Definition refreshPeriod (l : list (bytes * cfg)) : res (Z * list (bytes * cfg)) :=
  match l with
  | [] => Ok (NS_MAX, [])
  | (k, v) :: l' =>
      if negb (iequals k (str "refresh")) then Err ERuntime
      else match dat v with
           | [] => Err EUb
           | s => let unit := last s x00 in
                  match cast_i32 (removelast s) with
                  | Some n =>
                      if (n <? 0)%Z then Err ERuntime
                      else if (n =? 0)%Z then Ok (nsHour, l')
                      else let! t := (if beqb unit x68 then i64 (n * nsHour) else if beqb unit x6d then i64 (n * 60000000000)
                                      else if beqb unit x73 then i64 (n * 1000000000) else Err ERuntime) in Ok (t, l')
                  | None => Err ERuntime
                  end
           end
  end.
(* 106-174 processConfigTrustAnchor: the request to the validator, or None for "any" (whose other properties are ignored).  What the validator makes of the request
   (loadAnchor may throw; a certificate may not decode) is the argument anchor of load below *)
Definition ta_create (c : cfg) : res (option leff) :=
  let! t := expect (str "type") (kids c) in
  if iequals (fst t) (str "file") then
    let! f := expect (str "file-name") (snd t) in
    let! r := refreshPeriod (snd f) in
    let! _ := done (snd r) in Ok (Some (EAnchorFile (fst f) (fst r) false))
  else if iequals (fst t) (str "base64") then
    let! b := expect (str "base64-string") (snd t) in
    let! _ := done (snd b) in Ok (Some (EAnchorText (fst b)))
  else if iequals (fst t) (str "dir") then
    let! f := expect (str "dir") (snd t) in
    let! r := refreshPeriod (snd f) in
    let! _ := done (snd r) in Ok (Some (EAnchorFile (fst f) (fst r) true))
  else if iequals (fst t) (str "any") then Ok None
  else Err ERuntime.

(* ---- ValidationPolicyConfig ---- *)
Record vpol := mkVPol { vp_configured : bool; vp_bypass : bool; vp_data : list rule; vp_int : list rule }.
Definition vp_new : vpol := mkVPol false false [] [].
Section Load.
Variable anchor : leff -> option err.
(* 82-103 the loop over the sections *)
Fixpoint load_all (l : list (bytes * cfg)) (p : vpol) : vpol * list leff * res unit :=
  match l with
  | [] => (p, [], Ok tt)
  | (k, v) :: l' =>
      if iequals k (str "rule") then
        match rl_create v with
        | Ok r => load_all l' (if rl_data r then mkVPol (vp_configured p) (vp_bypass p) (vp_data p ++ [r]) (vp_int p)
                               else mkVPol (vp_configured p) (vp_bypass p) (vp_data p) (vp_int p ++ [r]))
        | Err e => (p, [], Err e)
        end
      else if iequals k (str "trust-anchor") then
        match ta_create v with
        | Ok None => load_all l' (mkVPol (vp_configured p) true (vp_data p) (vp_int p))
        | Ok (Some a) => match anchor a with
                         | None => let x := load_all l' p in (fst (fst x), a :: snd (fst x), snd x)
                         | Some e => (p, [a], Err e)
                         end
        | Err e => (p, [], Err e)
        end
      else (p, [], Err ERuntime)
  end.
(* 66-104 load; a validator is assigned *)
Definition vp_load (c : cfg) (p : vpol) : vpol * list leff * res unit :=
  if vp_configured p
  then let x := load_all (kids c) (mkVPol true false [] []) in (fst (fst x), EResetAnchors :: EResetVerified :: snd (fst x), snd x)
  else load_all (kids c) (mkVPol true (vp_bypass p) (vp_data p) (vp_int p)).
End Load.
(* the loop over the rules, 241-253 and 277-289 *)
Fixpoint by_rules (p : ppkt) (sig : N) (kl : cname) (l : list rule) : list rule * pans :=
  match l with
  | [] => ([], PAFail VE_POLICY_ERROR)
  | r :: l' =>
      match rl_match p r with
      | (r1, Err e) => (r1 :: l', PAThrow e)
      | (r1, Ok true) =>
          match rl_check p sig kl r1 with
          | (r2, Err e) => (r2 :: l', PAThrow e)
          | (r2, Ok true) => (r2 :: l', PARequest (certRequest kl))
          | (r2, Ok false) => (r2 :: l', PAFail VE_POLICY_ERROR)
          end
      | (r1, Ok false) => let x := by_rules p sig kl l' in (r1 :: fst x, snd x)
      end
  end.
(* 227-256 and 258-292 checkPolicy *)
Definition vp_check (p : ppkt) (v : vpol) : vpol * pans :=
  if vp_bypass v then (v, PABypass)
  else match pp_sigInfo p with
       | Err e => (v, PAThrow e)
       | Ok PFail => (v, PAFail VE_MALFORMED_SIGNATURE)
       | Ok (PGo si) =>
           match klName si with
           | PFail => (v, PAFail (VE_OTHER 8))
           | PGo kl =>
               if pp_isData p
               then let x := by_rules p (sigValue si) kl (vp_data v) in (mkVPol (vp_configured v) (vp_bypass v) (fst x) (vp_int v), snd x)
               else let x := by_rules p (sigValue si) kl (vp_int v) in (mkVPol (vp_configured v) (vp_bypass v) (vp_data v) (fst x), snd x)
           end
       end.
End VConfig.
