(* NDN regular expressions: syntax and meaning, for C58, C68 and C69.  Of M_Regex only the names of characters, and the matcher object in the last section. *)
From Verif Require Import Base M_Str M_Name M_Regex.
Open Scope N_scope.

(* Patterns: a set of components, given by regular expressions on their URI ([^...]: incl = false); a group; a repetition, from mn to mx (None: unlimited) times *)
Inductive pat := PSet (incl : bool) (l : list bytes) | PGrp (l : list pat) | PRep (p : pat) (mn : N) (mx : option N).

(* ---- meaning: the names a pattern denotes ---- *)
Section Meaning.
Variable accepts : bytes -> bytes -> Prop. (* the regular expression e of std::regex accepts the string s *)
Variable uf : uri_format.
Definition comp_in (e : bytes) (c : comp) : Prop := e = [] \/ accepts e (comp_toUri uf c).
Fixpoint in_sequence (ls : list (list comp -> Prop)) (w : list comp) : Prop :=
  match ls with [] => w = [] | L :: ls' => exists u v, w = u ++ v /\ L u /\ in_sequence ls' v end.
Definition at_most (k : N) (mx : option N) : Prop := match mx with Some m => k <= m | None => True end.
Fixpoint lang (p : pat) (w : list comp) : Prop :=
  match p with
  | PSet true l => exists c, w = [c] /\ exists e, In e l /\ comp_in e c
  | PSet false l => exists c, w = [c] /\ forall e, In e l -> ~ comp_in e c
  | PGrp l => in_sequence (map lang l) w
  | PRep q mn mx => exists ws, w = concat ws /\ Forall (lang q) ws /\ mn <= nlen ws /\ at_most (nlen ws) mx
  end.
Definition langs (ps : list pat) (w : list comp) : Prop := in_sequence (map lang ps) w.
(* a whole expression ^ps$: without ^ a prefix of the name is skipped, without $ a suffix *)
Definition lang_top (caret dollar : bool) (ps : list pat) (w : list comp) : Prop :=
  exists u v x, w = u ++ v ++ x /\ (caret = true -> u = []) /\ (dollar = true -> x = []) /\ langs ps v.
(* nothing that denotes the empty name is repeated *)
Fixpoint solid (p : pat) : Prop :=
  match p with PSet _ _ => True | PGrp l => fold_right and True (map solid l) | PRep q _ _ => solid q /\ ~ lang q [] end.

(* ---- back references ---- numbered from 0 in the order of the opening parentheses, including the marked subexpressions of component expressions *)
Variable marks : bytes -> N.
Definition sum (l : list N) : N := fold_right N.add 0 l.
Fixpoint width (p : pat) : N :=
  match p with PSet _ l => sum (map marks l) | PGrp l => 1 + sum (map width l) | PRep q _ _ => width q end.
(* captured p i w c: w is read as p in such a way that each group of p, numbered from i on, captures what c says.  A group that is repeated captures what it
   matches the last time; a group repeated zero times may capture anything. *)
Fixpoint captured (p : pat) (i : N) (w : list comp) (c : N -> list comp) : Prop :=
  match p with
  | PSet _ _ => lang p w
  | PGrp l => c i = w /\
      (fix each (l : list pat) (i : N) (w : list comp) : Prop :=
         match l with [] => w = [] | q :: l' => exists u v, w = u ++ v /\ captured q i u c /\ each l' (i + width q) v end) l (i + 1) w
  | PRep q mn mx => exists ws, w = concat ws /\ Forall (lang q) ws /\ mn <= nlen ws /\ at_most (nlen ws) mx /\ forall a z, ws = a ++ [z] -> captured q i z c
  end.
Fixpoint captured_all (l : list pat) (i : N) (w : list comp) (c : N -> list comp) : Prop :=
  match l with [] => w = [] | q :: l' => exists u v, w = u ++ v /\ captured q i u c /\ captured_all l' (i + width q) v c end.
End Meaning.

(* ---- syntax ---- *)
Definition count (c : byte) (s : bytes) : nat := length (filter (beqb c) s).
(* s is balanced in the brackets l and r *)
Definition balanced (l r : byte) (s : bytes) : Prop := count r s = count l s /\ forall p q, s = p ++ q -> (count r p <= count l p)%nat.
Definition decimal (s : bytes) : N := fold_left (fun a c => a * 10 + (bn c - 48)) s 0.
Definition is_decimal (s : bytes) : Prop := s <> [] /\ Forall (fun c => 48 <= bn c <= 57) s /\ decimal s < two64.
(* 2^64 - 1 stands for unlimited *)
Definition bound (n : N) : option N := if n =? two64 - 1 then None else Some n.
(* quantifiers: nothing, ? + * {m} {m,} {,n} {m,n} *)
Inductive quant : bytes -> N -> option N -> Prop :=
| Q_one : quant [] 1 (Some 1)
| Q_opt : quant [cQuest] 0 (Some 1)
| Q_plus : quant [cPlus] 1 None
| Q_star : quant [cStar] 0 None
| Q_exact d : is_decimal d -> quant (cLcur :: d ++ [cRcur]) (decimal d) (bound (decimal d))
| Q_min d : is_decimal d -> quant (cLcur :: d ++ [cComma; cRcur]) (decimal d) None
| Q_max d : is_decimal d -> quant (cLcur :: cComma :: d ++ [cRcur]) 0 (bound (decimal d))
| Q_range d e : is_decimal d -> is_decimal e -> decimal d <= decimal e -> quant (cLcur :: d ++ cComma :: e ++ [cRcur]) (decimal d) (bound (decimal e)).
(* the expression of a component: balanced in < and >, no zero byte *)
Definition comp_text (e : bytes) : Prop := balanced cLt cGt e /\ ~ In x00 e.
Definition angled (e : bytes) : bytes := cLt :: e ++ [cGt].
(* <e>  [<e>...]  [^<e>...] *)
Inductive set_text : bytes -> bool -> list bytes -> Prop :=
| S_one e : comp_text e -> set_text (angled e) true [e]
| S_in l : Forall comp_text l -> balanced cLbra cRbra (concat (map angled l)) -> set_text (cLbra :: concat (map angled l) ++ [cRbra]) true l
| S_out l : Forall comp_text l -> balanced cLbra cRbra (concat (map angled l)) -> set_text (cLbra :: cCaret :: concat (map angled l) ++ [cRbra]) false l.
(* a sequence of patterns *)
Inductive spelled : list pat -> bytes -> Prop :=
| P_nil : spelled [] []
| P_group l s ps t : spelled l s -> balanced cLpar cRpar s -> spelled ps t -> spelled (PGrp l :: ps) (cLpar :: s ++ cRpar :: t)
| P_group_rep l s q mn mx ps t : spelled l s -> balanced cLpar cRpar s -> quant q mn mx -> q <> [] -> spelled ps t -> spelled (PRep (PGrp l) mn mx :: ps) (cLpar :: s ++ cRpar :: q ++ t)
| P_set st incl l q mn mx ps t : set_text st incl l -> quant q mn mx -> spelled ps t -> spelled (PRep (PSet incl l) mn mx :: ps) (st ++ q ++ t).
Definition top_text (caret : bool) (s : bytes) (dollar : bool) : bytes := (if caret then [cCaret] else []) ++ s ++ (if dollar then [cDollar] else []).
(* the component expressions of a pattern *)
Fixpoint exprs (p : pat) : list bytes := match p with PSet _ l => l | PGrp l => flat_map exprs l | PRep q _ _ => exprs q end.

(* ---- a matcher object after some calls of match() ---- *)
Inductive used (re_match : bytes -> bytes -> option (list bytes)) (uf : uri_format) (stack : nat) (t : rtop) : rtop -> Prop :=
| U_new : used re_match uf stack t t
| U_match t1 n b t2 : used re_match uf stack t t1 -> rt_match re_match uf stack n t1 = Ok (b, t2) -> used re_match uf stack t t2.
(* ---- std::regex ---- re_match e s: the regular expression e accepts s; re_count e: the number of marked subexpressions, None if e is not a regular expression *)
Definition acc (re_match : bytes -> bytes -> option (list bytes)) (e s : bytes) : Prop := re_match e s <> None.
Definition valid (re_count : bytes -> option N) (e : bytes) : Prop := re_count e <> None.
Definition marks_of (re_count : bytes -> option N) (e : bytes) : N := match re_count e with Some k => k | None => 0 end.
(* what is assumed of std::regex: .* is accepted, has no marked subexpressions, and matches every URI of a component *)
Definition dot_star (re_count : bytes -> option N) (re_match : bytes -> bytes -> option (list bytes)) (uf : uri_format) : Prop :=
  re_count [cPeriod; cStar] = Some 0 /\ forall c, re_match [cPeriod; cStar] (comp_toUri uf c) <> None.

(* ---- templates for expand(): back references \0 (the whole name), \1, \2, ... and <uri> ---- *)
Inductive titem := TRef (i : N) | TLit (u : bytes).
Definition item_text (x : titem) : bytes := match x with TRef i => cBack :: to_string i | TLit u => angled u end.
(* n: the name, w: the number of back references, c: what they capture *)
Definition item_says (n : list comp) (w : N) (c : N -> list comp) (x : titem) (v : list comp) : Prop :=
  match x with
  | TRef i => i = 0 /\ v = n \/ 1 <= i <= w /\ i < two64 /\ v = c (i - 1)
  | TLit u => balanced cLt cGt u /\ exists m, nm_fromUri u = Ok m /\ v = n_comps m
  end.

(* ---- regular expressions (ECMAScript) that stand for one string: special characters are escaped ---- *)
Definition meta : bytes := [cCaret; cDollar; cBack; cPeriod; cStar; cPlus; cQuest; cLpar; cRpar; cLbra; cRbra; cLcur; cRcur; x7c].
Inductive literal : bytes -> bytes -> Prop :=
| L_nil : literal [] []
| L_plain c e s : ~ In c meta -> literal e s -> literal (c :: e) (c :: s)
| L_escaped c e s : In c meta -> literal e s -> literal (cBack :: c :: e) (c :: s).
(* assumed of std::regex *)
Definition literals (re_count : bytes -> option N) (re_match : bytes -> bytes -> option (list bytes)) : Prop :=
  forall e s, e <> [] -> literal e s -> re_count e <> None /\ forall t, re_match e t <> None <-> t = s.
