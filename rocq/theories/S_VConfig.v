(* The configuration file of ValidatorConfig: what it says, for C73; trust in hierarchical names, for C74 and C75.  Of the models only names, packets and the
   property tree. *)
From Verif Require Import Base M_Tlv M_Str M_Name S_Name M_Packet M_Regex S_Regex M_Ims M_CertCache M_Validator S_Validator M_VConfig.
From Coq Require Import ZArith String.
Open Scope list_scope.
Open Scope N_scope.

(* ---- names ---- *)
Definition keys (n : list comp) : list key := map ckey n.
Definition under (a b : list key) : Prop := exists c, b = a ++ c.
Definition related (r : relation) (a b : list key) : Prop :=
  match r with EQUAL => a = b | IS_PREFIX_OF => under a b | IS_STRICT_PREFIX_OF => exists c, c <> [] /\ b = a ++ c end.
Definition KEY : key := (8, str "KEY").
Definition localhost_identity (s : bytes) : list key := [(8, str "localhost"); (8, str "identity"); (8, s)].
(* the identity in a KeyLocator: what comes before the last component KEY, which is among the last four; or one of two reserved names *)
Definition reserved (kl : list key) : Prop := kl = localhost_identity (str "digest-sha256") \/ kl = localhost_identity (str "hmac").
Definition identity_of (kl i : list key) : Prop :=
  (reserved kl /\ i = kl) \/ (~ reserved kl /\ exists t, kl = i ++ KEY :: t /\ nlen t <= 3 /\ ~ In KEY t).
(* kl is the name of a key or certificate of i *)
Definition key_of (kl i : list key) : Prop := exists t, kl = i ++ KEY :: t /\ 1 <= nlen t <= 3.

(* ---- what is said about a packet ---- *)
(* the name that the rules are about: that of the Data; that of the Interest without the last component, the digest of its parameters (format v0.3), or without the last two,
   SignatureInfo and SignatureValue (format v0.2) *)
Inductive about_name : ppkt -> list comp -> Prop :=
| AN_data n si : about_name (PData n si) (n_comps n)
| AN_int3 n si a c : n_comps n = a ++ [c] -> c_type c = 2 -> about_name (PInt3 n si) a
| AN_int2 n a c d : n_comps n = a ++ [c; d] -> about_name (PInt2 n) a.

(* the SignatureInfo of a packet; in the format v0.2 it is in the second last component *)
Inductive info_of : ppkt -> siginfo -> Prop :=
| IO_data n si : info_of (PData n si) si
| IO_int3 n si : info_of (PInt3 n si) si
| IO_int2 n a c d b si : n_comps n = a ++ [c; d] -> blockFromValue (mkElem (c_type c) [] (c_val c)) = Ok b -> si_decode SiData b = (si, None) -> info_of (PInt2 n) si.
(* the number of the signature type (16 bits), and the name of the key: that in the KeyLocator, or a reserved name for a digest *)
Definition signed_as (si : siginfo) (sig : N) (kl : list comp) : Prop :=
  sig = match si_type si with Some t => t mod 65536 | None => 65535 end /\
  (si_type si = Some 0 /\ kl = map (fun s => comp_ofString (str s)) ["localhost"; "identity"; "digest-sha256"]%string \/
   si_type si <> Some 0 /\ exists k n, si_key si = Some k /\ kl_loc k = KlName n /\ kl = n_comps n).

(* an expression: a regular expression on names (S_Regex), with or without ^ and $ *)
Record expr := mkEx { x_caret : bool; x_pats : list pat; x_dollar : bool }.
Inductive sfilter := SFName (n : list key) (r : relation) | SFExpr (e : expr).
Inductive scheck := SCAny | SCName (n : list key) (r : relation) | SCExpr (e : expr) | SCHyper (ep : expr) (tp : bytes) (ek : expr) (tk : bytes) (r : relation) | SCHier.
Record srule := mkSR { sr_data : bool; sr_filters : list sfilter; sr_checkers : list (N * scheck) }.
Inductive section := SRule (r : srule) | SAnchor (a : leff) | SAny.

Section Meaning.
Variable re_count : bytes -> option N.
Variable re_match : bytes -> bytes -> option (list bytes).
Variable uf : uri_format.
Definition matches (e : expr) (n : list comp) : Prop := lang_top (acc re_match) uf (x_caret e) (x_dollar e) (x_pats e) n.
(* v is what the template t makes of a reading of n as e *)
Definition expands (e : expr) (n : list comp) (items : list titem) (v : list comp) : Prop :=
  exists c a b z vs, n = a ++ b ++ z /\ (x_caret e = true -> a = []) /\ (x_dollar e = true -> z = []) /\ captured_all (acc re_match) uf (marks_of re_count) (x_pats e) 0 b c /\
    Forall2 (item_says n (sum (map (width (marks_of re_count)) (x_pats e))) c) items vs /\ v = List.concat vs.
(* a template that can be used with e: back references to groups of e and names, the last one a back reference *)
Definition template (e : expr) (t : bytes) (items : list titem) : Prop :=
  t = List.concat (map item_text items) /\ (exists l i, items = l ++ [TRef i]) /\
  Forall (fun x => match x with TRef i => i <= sum (map (width (marks_of re_count)) (x_pats e)) /\ i < two64 | TLit u => balanced cLt cGt u /\ exists m, nm_fromUri u = Ok m end) items.
Definition filter_holds (n : list comp) (f : sfilter) : Prop :=
  match f with SFName m r => related r m (keys n) | SFExpr e => matches e n end.
(* rule r is for packet p: one of its filters holds, or it has none *)
Definition applies (p : ppkt) (r : srule) : Prop :=
  sr_filters r = [] \/ exists n f, about_name p n /\ In f (sr_filters r) /\ filter_holds n f.
(* n: the name that the rules are about; kl: the KeyLocator *)
Definition permits (n kl : list comp) (c : scheck) : Prop :=
  match c with
  | SCAny => True
  | SCName m r => exists i, identity_of (keys kl) i /\ related r m i
  | SCExpr e => matches e kl
  | SCHyper ep tp ek tk r =>
      matches ep n /\ matches ek kl /\
      forall ip ik, template ep tp ip -> template ek tk ik -> exists vp vk, expands ep n ip vp /\ expands ek kl ik vk /\ related r (keys vk) (keys vp)
  | SCHier => exists i, key_of (keys kl) i /\ under i (keys n)
  end.
Definition allows (p : ppkt) (sig : N) (kl : list comp) (r : srule) : Prop :=
  exists n c, about_name p n /\ In (sig, c) (sr_checkers r) /\ permits n kl c.
(* the rules of a configuration for packets of the type of p *)
Definition rules_for (p : ppkt) (l : list section) : list srule :=
  flat_map (fun s => match s with SRule r => if Bool.eqb (sr_data r) (pp_isData p) then [r] else [] | _ => [] end) l.
(* the first rule for p allows it *)
Definition allowed (p : ppkt) (sig : N) (kl : list comp) (l : list section) : Prop :=
  exists a r b, rules_for p l = a ++ r :: b /\ (forall x, In x a -> ~ applies p x) /\ applies p r /\ allows p sig kl r.

(* ---- the text ---- as a property tree; keys and keywords in any mixture of upper and lower case *)
Definition low (c : byte) : N := if (65 <=? bn c) && (bn c <=? 90) then bn c + 32 else bn c.
Definition reads (s : bytes) (w : String.string) : Prop := map low s = map low (str w).
Definition prop (p : bytes * cfg) (w : String.string) : Prop := reads (fst p) w.
Definition value (p : bytes * cfg) : bytes := dat (snd p).
Definition expr_text (s : bytes) (e : expr) : Prop :=
  s <> [] /\ exists b, s = top_text (x_caret e) b (x_dollar e) /\ spelled (x_pats e) b /\ Forall (valid re_count) (flat_map exprs (x_pats e)).
Inductive rel_text : bytes -> relation -> Prop :=
| RT_equal s : reads s "equal" -> rel_text s EQUAL
| RT_prefix s : reads s "is-prefix-of" -> rel_text s IS_PREFIX_OF
| RT_strict s : reads s "is-strict-prefix-of" -> rel_text s IS_STRICT_PREFIX_OF.
Inductive filter_text : list (bytes * cfg) -> sfilter -> Prop :=
| FT_name t n r m rel : prop t "type" -> reads (value t) "name" -> prop n "name" -> nm_fromUri (value n) = Ok m -> prop r "relation" -> rel_text (value r) rel -> filter_text [t; n; r] (SFName (nkey m) rel)
| FT_expr t x e : prop t "type" -> reads (value t) "name" -> prop x "regex" -> expr_text (value x) e -> filter_text [t; x] (SFExpr e).
(* an optional sig-type; ecdsa-sha256 if it is left out *)
Definition begins (l : list (bytes * cfg)) (w : String.string) : Prop := exists p l', l = p :: l' /\ prop p w.
Inductive sig_text : list (bytes * cfg) -> N -> list (bytes * cfg) -> Prop :=
| ST_default l : ~ begins l "sig-type" -> sig_text l 3 l
| ST_rsa p l : prop p "sig-type" -> reads (value p) "rsa-sha256" -> sig_text (p :: l) 1 l
| ST_ecdsa p l : prop p "sig-type" -> reads (value p) "ecdsa-sha256" -> sig_text (p :: l) 3 l
| ST_digest p l : prop p "sig-type" -> reads (value p) "sha256" -> sig_text (p :: l) 0 l.
Inductive locator_text : list (bytes * cfg) -> scheck -> Prop :=
| LT_name t n r m rel : prop t "type" -> reads (value t) "name" -> prop n "name" -> nm_fromUri (value n) = Ok m -> prop r "relation" -> rel_text (value r) rel -> locator_text [t; n; r] (SCName (nkey m) rel)
| LT_expr t x e : prop t "type" -> reads (value t) "name" -> prop x "regex" -> expr_text (value x) e -> locator_text [t; x] (SCExpr e)
(* what follows a hyper-relation is ignored *)
| LT_hyper t h ignored kr ke hr pr pe ek ep rel : prop t "type" -> reads (value t) "name" -> prop h "hyper-relation" -> kids (snd h) = [kr; ke; hr; pr; pe] ->
    prop kr "k-regex" -> prop ke "k-expand" -> prop hr "h-relation" -> prop pr "p-regex" -> prop pe "p-expand" ->
    expr_text (value kr) ek -> expr_text (value pr) ep -> rel_text (value hr) rel -> locator_text (t :: h :: ignored) (SCHyper ep (value pe) ek (value ke) rel).
Inductive checker_text : list (bytes * cfg) -> N * scheck -> Prop :=
| CT_locator t l s k c : prop t "type" -> reads (value t) "customized" -> sig_text l s [k] -> prop k "key-locator" -> locator_text (kids (snd k)) c -> checker_text (t :: l) (s, c)
(* what follows sig-type sha256 is ignored, unless it is a key-locator *)
| CT_digest t l ignored : prop t "type" -> reads (value t) "customized" -> sig_text l 0 ignored -> ~ begins ignored "key-locator" -> checker_text (t :: l) (0, SCAny)
| CT_hier t l s : prop t "type" -> reads (value t) "hierarchical" -> sig_text l s [] -> checker_text (t :: l) (s, SCHier).
Definition for_text (s : bytes) (data : bool) : Prop := reads s (if data then "data" else "interest")%string.
Definition rule_text (l : list (bytes * cfg)) (r : srule) : Prop :=
  exists i u fs cs, l = i :: u :: fs ++ cs /\ prop i "id" /\ prop u "for" /\ for_text (value u) (sr_data r) /\
    Forall2 (fun p f => prop p "filter" /\ filter_text (kids (snd p)) f) fs (sr_filters r) /\
    Forall2 (fun p c => prop p "checker" /\ checker_text (kids (snd p)) c) cs (sr_checkers r) /\ cs <> [].
(* refresh: a number and a unit h, m or s; 0 is one hour; never if it is left out.  In nanoseconds *)
Definition number_text (s : bytes) (n : Z) : Prop :=
  exists sign d, s = sign ++ d /\ d <> [] /\ Forall (fun c => 48 <= bn c <= 57) d /\ (0 <= n < 2 ^ 31)%Z /\ Z.of_N (decimal d) = n /\
    (sign = [] \/ sign = [cPlus] \/ sign = [x2d] /\ n = 0%Z).
Inductive unit_text : byte -> Z -> Prop := U_h : unit_text x68 (3600 * 10 ^ 9) | U_m : unit_text x6d (60 * 10 ^ 9) | U_s : unit_text x73 (10 ^ 9).
Inductive refresh_text : list (bytes * cfg) -> Z -> Prop :=
| RF_never : refresh_text [] (2 ^ 63 - 1)
| RF_zero p s u : prop p "refresh" -> value p = s ++ [u] -> number_text s 0 -> refresh_text [p] (3600 * 10 ^ 9)
| RF_period p s u n k : prop p "refresh" -> value p = s ++ [u] -> number_text s n -> (0 < n)%Z -> unit_text u k -> (n * k < 2 ^ 63)%Z -> refresh_text [p] (n * k).
Inductive anchor_text : list (bytes * cfg) -> section -> Prop :=
| AT_file t f l z : prop t "type" -> reads (value t) "file" -> prop f "file-name" -> refresh_text l z -> anchor_text (t :: f :: l) (SAnchor (EAnchorFile (value f) z false))
| AT_dir t f l z : prop t "type" -> reads (value t) "dir" -> prop f "dir" -> refresh_text l z -> anchor_text (t :: f :: l) (SAnchor (EAnchorFile (value f) z true))
| AT_text t b : prop t "type" -> reads (value t) "base64" -> prop b "base64-string" -> anchor_text [t; b] (SAnchor (EAnchorText (value b)))
| AT_any t ignored : prop t "type" -> reads (value t) "any" -> anchor_text (t :: ignored) SAny.
Inductive section_text : bytes * cfg -> section -> Prop :=
| XT_rule p r : prop p "rule" -> rule_text (kids (snd p)) r -> section_text p (SRule r)
| XT_anchor p s : prop p "trust-anchor" -> anchor_text (kids (snd p)) s -> section_text p s.
Definition config_text (c : cfg) (l : list section) : Prop := Forall2 section_text (kids c) l.
Definition anchors_of (l : list section) : list leff := flat_map (fun s => match s with SAnchor a => [a] | _ => [] end) l.

(* ---- restrictions ---- *)
Definition solid_expr (e : expr) : Prop := Forall (solid (acc re_match) uf) (x_pats e).
(* in the expressions of filters and key-locators nothing that denotes the empty name is repeated (C58) *)
Definition solid_filter (f : sfilter) : Prop := match f with SFExpr e => solid_expr e | SFName _ _ => True end.
(* what the expression and its template make of n is determined *)
Definition unambiguous (e : expr) (n : list comp) (t : bytes) : Prop := exists items, template e t items /\ forall v w, expands e n items v -> expands e n items w -> v = w.
(* the checker gives the right answer for n and kl, whatever was checked before: a name-relation needs an identity in kl; a hyper-relation, including hierarchical, must be unambiguous *)
Definition decided (n kl : list comp) (c : scheck) : Prop :=
  match c with
  | SCAny => True
  | SCName _ _ => exists i, identity_of (keys kl) i
  | SCExpr e => solid_expr e
  | SCHyper ep tp ek tk _ => solid_expr ep /\ solid_expr ek /\ unambiguous ep n tp /\ unambiguous ek kl tk
  | SCHier => uf = ALTERNATE /\ forall i j, key_of (keys kl) i -> key_of (keys kl) j -> i = j
  end.
Definition decided_by (p : ppkt) (kl : list comp) (r : srule) : Prop :=
  Forall solid_filter (sr_filters r) /\ forall n c, about_name p n -> In c (sr_checkers r) -> decided n kl (snd c).
Definition rules_of (l : list section) : list srule := flat_map (fun s => match s with SRule r => [r] | _ => [] end) l.
End Meaning.
(* assumed of std::regex: .* and regular expressions for one string (S_Regex), and that the empty one is accepted *)
Definition std_regex (re_count : bytes -> option N) (re_match : bytes -> bytes -> option (list bytes)) (uf : uri_format) : Prop :=
  dot_star re_count re_match uf /\ literals re_count re_match /\ re_count [] <> None.
(* recursion deep enough for a name *)
Definition deep_enough (stack : nat) (n : list comp) : Prop := (List.length n < stack)%nat /\ nlen n < two64 - 1.

(* ---- histories ---- *)
Section Use.
Variable re_count : bytes -> option N.
Variable re_match : bytes -> bytes -> option (list bytes).
Variable uf : uri_format.
Variable stack : nat.
(* a policy object after some calls of load(), which may fail, and of checkPolicy() *)
Inductive reached : vpol -> Prop :=
| R_new : reached vp_new
| R_load anchor c v : reached v -> reached (fst (fst (vp_load re_count anchor c v)))
| R_check p v : reached v -> reached (fst (vp_check re_match uf stack p v)).
(* the latest call of load() was successful, with a configuration that says l; any number of packets were checked since then *)
Inductive in_use (l : list section) : vpol -> Prop :=
| IU_load anchor c v : reached v -> config_text re_count c l -> snd (vp_load re_count anchor c v) = Ok tt -> in_use l (fst (fst (vp_load re_count anchor c v)))
| IU_check p v : in_use l v -> in_use l (fst (vp_check re_match uf stack p v)).
(* ---- trust ---- *)
(* what the validator checks, as the policy sees it: a certificate is a Data *)
Definition contents (content : vitem -> ppkt) : Prop := forall c, exists n si, content (VCert c) = PData n si /\ keys (n_comps n) = ct_name c.
(* the policy of the validator is an object with configuration l, which may check other packets, too, between any two calls *)
Definition configured (l : list section) (content : vitem -> ppkt) (h : list vevent) : Prop :=
  forall e en it chain, In e h -> looks e = Some en -> exists v, in_use l v /\ en_pol en it chain = snd (vp_check re_match uf stack (content it) v).
End Use.
(* only hierarchical checkers, and no trust anchor any *)
Definition hierarchical (l : list section) : Prop :=
  Forall (fun s => match s with SRule r => Forall (fun c => snd c = SCHier) (sr_checkers r) | SAnchor _ => True | SAny => False end) l.
Definition simple (content : vitem -> ppkt) (h : list vevent) : Prop :=
  forall e en it chain, In e h -> looks e = Some en -> en_pol en it chain = simple_check (content it).
(* c was a trust anchor at some call, or declared verified by the application *)
Definition root (h : list vevent) (c : cert) : Prop := (exists en, In (VCacheVerified en c) h) \/ exists h1 h2 en, h = h1 ++ h2 /\ anchored h2 en c.
(* the namespace of a certificate: its name up to the first component KEY *)
Definition namespace (c : cert) (i : list key) : Prop := exists t, ct_name c = i ++ KEY :: t /\ ~ In KEY i.
(* without an issuer only digest signatures verify *)
Definition digest_only (verify : vitem -> option cert -> bool) (content : vitem -> ppkt) : Prop :=
  forall it si, verify it None = true -> info_of (content it) si -> si_type si = Some 0.
(* p was given to the validation i *)
Definition validated (h : list vevent) (i : N) (p : vpkt) : Prop := exists h2 en h1, h = h2 ++ VStart en p :: h1 /\ started h1 = i.
