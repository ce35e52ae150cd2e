(* Model of util/regex/*.cpp: NDN regular expressions over names.  Regular expressions inside < > (std::regex) are a parameter: re_count e is the number of
   marked subexpressions of e, None if constructing std::regex from e throws; re_match e s is the result of std::regex_match, with the submatches.
   Recursion in RegexRepeatMatcher::recursiveMatch is limited by a parameter, stack: exceeding it is Err EFuel (a stack overflow in the program). *)
From Verif Require Import Base M_Tlv M_Str M_Name.
From Coq Require Import String.
Open Scope list_scope.
Open Scope N_scope.

Definition cLt : byte := x3c.     (* < *)
Definition cGt : byte := x3e.     (* > *)
Definition cLpar : byte := x28.
Definition cRpar : byte := x29.
Definition cLbra : byte := x5b.   (* [ *)
Definition cRbra : byte := x5d.
Definition cLcur : byte := x7b.   (* { *)
Definition cRcur : byte := x7d.
Definition cComma : byte := x2c.
Definition cCaret : byte := x5e.
Definition cDollar : byte := x24.
Definition cBack : byte := x5c.
Definition cStar : byte := x2a.
Definition cPlus : byte := x2b.
Definition cQuest : byte := x3f.

(* a matcher for one component, whose marked subexpressions have back reference numbers from rc_base (0-based) *)
Record rcomp := mkRC { rc_expr : bytes; rc_base : N; rc_marks : N }.
(* compiled matchers: RegexComponentSetMatcher, RegexBackrefMatcher (with the RegexPatternListMatcher inside) and RegexRepeatMatcher *)
Inductive rx := RSet (incl : bool) (l : list rcomp) | RGrp (i : N) (l : list rx) | RRep (r : rx) (mn mx : N).
Definition MAX_REP : N := two64 - 1.

(* ---- compilation ---- *)
(* regex-pattern-list-matcher.cpp:104-124 extractSubPattern: up to and including the matching right, from nesting depth d; None: "Parenthesis mismatch" *)
Fixpoint span_bal (l r : byte) (d : nat) (s : bytes) : option (bytes * bytes) :=
  match s with
  | [] => None
  | c :: s' =>
      let d1 := if beqb c l then S d else if beqb c r then pred d else d in
      match d1 with
      | O => Some ([c], s')
      | _ => option_map (fun x => (c :: fst x, snd x)) (span_bal l r d1 s')
      end
  end.
(* up to and including the first c *)
Fixpoint span_to (c : byte) (s : bytes) : option (bytes * bytes) :=
  match s with
  | [] => None
  | x :: s' => if beqb x c then Some ([x], s') else option_map (fun y => (x :: fst y, snd y)) (span_to c s')
  end.
(* 126-152 extractRepetition: the quantifier, and the rest *)
Definition extractRep (s : bytes) : res (bytes * bytes) :=
  match s with
  | [] => Ok ([], [])
  | c :: s' =>
      if beqb c cPlus || beqb c cQuest || beqb c cStar then Ok ([c], s')
      else if beqb c cLcur then match span_to cRcur s with Some x => Ok x | None => Err ERuntime end
      else Ok ([], s)
  end.
Fixpoint span_digits (s : bytes) : bytes * bytes :=
  match s with
  | c :: s' => if isDigit c then let x := span_digits s' in (c :: fst x, snd x) else ([], s)
  | [] => ([], [])
  end.
(* the exceptions of std::stoul become RegexMatcher::Error *)
Definition stoul (s : bytes) : res N := match stoull s with Ok n => Ok n | Err _ => Err ERuntime end.
(* regex-repeat-matcher.cpp:60-120 parseRepetition *)
Definition parseRep (q : bytes) : res (N * N) :=
  match q with
  | [] => Ok (1, 1)
  | [c] => if beqb c cQuest then Ok (0, 1) else if beqb c cPlus then Ok (1, MAX_REP) else if beqb c cStar then Ok (0, MAX_REP) else Err ERuntime
  | c :: t =>
      if beqb c cLcur then
        let a := span_digits t in
        match snd a with
        | x :: t2 =>
            if beqb x cComma then
              let b := span_digits t2 in
              if bytes_eqb (snd b) [cRcur] then
                match fst a, fst b with
                | [], [] => Err ERuntime
                | [], m => let! mx := stoul m in Ok (0, mx)
                | m, [] => let! mn := stoul (m ++ [cComma]) in Ok (mn, MAX_REP)
                | m, m' => let! mn := stoul m in let! mx := stoul m' in if mx <? mn then Err ERuntime else Ok (mn, mx)
                end
              else Err ERuntime
            else if bytes_eqb (snd a) [cRcur] then
              match fst a with
              | [] => Err ERuntime
              | m => let! mn := stoul (m ++ [cRcur]) in Ok (mn, mn)
              end
            else Err ERuntime
        | [] => Err ERuntime
        end
      else Err ERuntime
  end.

Section Regex.
Variable re_count : bytes -> option N.
Variable re_match : bytes -> bytes -> option (list bytes).
Variable uf : uri_format.
Variable stack : nat.

(* regex-component-matcher.cpp:29-49; n: back references so far *)
Definition newComp (e : bytes) (n : N) : res (rcomp * N) := match re_count e with Some k => Ok (mkRC e n k, n + k) | None => Err ERuntime end.
(* regex-component-set-matcher.cpp:121-142 extractComponent: stops with an error at a zero byte, which includes the end of the string *)
Definition extractComp (s : bytes) : option (bytes * bytes) :=
  match span_bal cLt cGt 1 s with
  | Some (a, b) => if existsb (fun c => beqb c x00) a then None else Some (removelast a, b)
  | None => None
  end.
(* 72-91 compileMultipleComponents, of what is between [ or [^ and the last ] *)
Fixpoint comps_multi (fuel : nat) (s : bytes) (n : N) : res (list rcomp * N) :=
  match fuel with
  | O => Err EFuel
  | S fuel' =>
      match s with
      | [] => Ok ([], n)
      | c :: s' =>
          if beqb c cLt then
            match extractComp s' with
            | Some (e, rest) => let! x := newComp e n in let! y := comps_multi fuel' rest (snd x) in Ok (fst x :: fst y, snd y)
            | None => Err ERuntime
            end
          else Err ERuntime
      end
  end.
(* 35-70 compile, compileSingleComponent *)
Definition newSet (s : bytes) (n : N) : res (rx * N) :=
  match s with
  | c :: c1 :: s2 =>
      if beqb c cLt then
        match extractComp (c1 :: s2) with
        | Some (e, []) => let! x := newComp e n in Ok (RSet true [fst x], snd x)
        | _ => Err ERuntime
        end
      else if beqb c cLbra then
        if beqb (last (c1 :: s2) x00) cRbra then
          let body := removelast (c1 :: s2) in
          if beqb c1 cCaret then let! x := comps_multi (S (List.length body)) (removelast s2) n in Ok (RSet false (fst x), snd x)
          else let! x := comps_multi (S (List.length body)) body n in Ok (RSet true (fst x), snd x)
        else Err ERuntime
      else Err ERuntime
  | _ => Err ERuntime
  end.
(* regex-pattern-list-matcher.cpp:35-102 compile, extractPattern; regex-repeat-matcher.cpp:41-58; regex-backref-matcher.cpp:33-50 *)
Fixpoint rx_list (fuel : nat) (s : bytes) (n : N) : res (list rx * N) :=
  match fuel with
  | O => Err EFuel
  | S fuel' =>
      match s with
      | [] => Ok ([], n)
      | c :: s' =>
          if beqb c cLpar then
            match span_bal cLpar cRpar 1 s' with
            | None => Err ERuntime
            | Some (a, rest) =>
                let! q := extractRep rest in
                let! g := rx_list fuel' (removelast a) (n + 1) in
                let! r := match fst q with [] => Ok (RGrp n (fst g)) | _ => let! m := parseRep (fst q) in Ok (RRep (RGrp n (fst g)) (fst m) (snd m)) end in
                let! y := rx_list fuel' (snd q) (snd g) in Ok (r :: fst y, snd y)
            end
          else if beqb c cLt || beqb c cLbra then
            match span_bal c (if beqb c cLt then cGt else cRbra) 1 s' with
            | None => Err ERuntime
            | Some (a, rest) =>
                let! q := extractRep rest in
                let! x := newSet (c :: a) n in
                let! m := parseRep (fst q) in
                let! y := rx_list fuel' (snd q) (snd x) in Ok (RRep (fst x) (fst m) (snd m) :: fst y, snd y)
            end
          else Err ERuntime
      end
  end.
Definition rx_compile (s : bytes) : res (list rx * N) := rx_list (S (List.length s)) s 0.

(* ---- matching ----  A part (name, offset, len) of the name is the list of its components.  caps: the match results of the matchers that are back
   references.  The match results of the others are not observable. *)
Definition caps := N -> list comp.
Definition cap_set (i : N) (v : list comp) (c : caps) : caps := fun k => if k =? i then v else c k.
Definition matcher := list comp -> caps -> res (bool * caps).
(* regex-component-matcher.cpp:51-77: the submatches become components with the text of the submatch as value (regex-pseudo-matcher.cpp:33-43) *)
Fixpoint set_marks (k : nat) (i : N) (subs : list bytes) (c : caps) : caps :=
  match k with
  | O => c
  | S k' => set_marks k' (i + 1) (tl subs) (cap_set i [comp_ofString (hd [] subs)] c)
  end.
Definition match_comp (x : rcomp) (w : comp) (c : caps) : bool * caps :=
  match rc_expr x with
  | [] => (true, c)
  | e => match re_match e (comp_toUri uf w) with
         | Some subs => (true, set_marks (N.to_nat (rc_marks x)) (rc_base x) subs c)
         | None => (false, c)
         end
  end.
(* regex-component-set-matcher.cpp:93-119 *)
Fixpoint match_comps (l : list rcomp) (w : comp) (c : caps) : bool * caps :=
  match l with
  | [] => (false, c)
  | x :: l' => let r := match_comp x w c in if fst r then r else match_comps l' w (snd r)
  end.
(* the loop over tried, from n down to 0 *)
Fixpoint tries (n : nat) (f : nat -> caps -> res (bool * caps)) (c : caps) : res (bool * caps) :=
  let! x := f n c in
  if fst x then Ok x else match n with O => Ok x | S n' => tries n' f (snd x) end.
(* regex-matcher.cpp:54-73 RegexMatcher::recursiveMatch, of the matchers from matcherNo on *)
Fixpoint brec (ms : list matcher) (w : list comp) (c : caps) : res (bool * caps) :=
  match ms with
  | [] => Ok (match w with [] => true | _ => false end, c)
  | m :: ms' => tries (List.length w) (fun k c0 => let! x := m (firstn k w) c0 in if fst x then brec ms' (skipn k w) (snd x) else Ok x) c
  end.
(* regex-repeat-matcher.cpp:140-170 RegexRepeatMatcher::recursiveMatch *)
Fixpoint rrec (st : nat) (m : matcher) (mn mx k : N) (w : list comp) (c : caps) : res (bool * caps) :=
  match st with
  | O => Err EFuel
  | S st' =>
      match w with
      | [] => Ok (mn <=? k, c)
      | _ => if mx <=? k then Ok (false, c)
             else tries (List.length w) (fun t c0 => let! x := m (firstn t w) c0 in if fst x then rrec st' m mn mx (k + 1) (skipn t w) (snd x) else Ok x) c
      end
  end.
Fixpoint match_rx (r : rx) : matcher := fun w c =>
  match r with
  | RSet incl l => match w with [x] => let y := match_comps l x c in Ok (Bool.eqb incl (fst y), snd y) | _ => Ok (false, c) end
  (* regex-matcher.cpp:39-52 RegexMatcher::match; the one matcher of a group is the list of its patterns *)
  | RGrp i l => let! x := brec [brec (map match_rx l)] w (cap_set i [] c) in if fst x then Ok (true, cap_set i w (snd x)) else Ok x
  (* regex-repeat-matcher.cpp:122-138 *)
  | RRep r' mn mx => if (mn =? 0) && match w with [] => true | _ => false end then Ok (true, c) else rrec stack (match_rx r') mn mx 0 w c
  end.
Definition match_list (l : list rx) : matcher := brec (map match_rx l).

(* ---- RegexTopMatcher ---- *)
Record rtop := mkRT { t_prim : list rx; t_pn : N; t_sec : option (list rx * N); t_expand : bytes; t_caps1 : caps; t_caps2 : caps; t_result : list comp; t_used : bool }.
Definition anyStar : bytes := str "<.*>*".
(* regex-top-matcher.cpp:31-63 *)
Definition rt_new (expr expand : bytes) : res rtop :=
  match expr with
  | [] => Err EUb (* expr[expr.size() - 1] *)
  | _ =>
      let e1 := if beqb (last expr x00) cDollar then removelast expr else expr ++ anyStar in
      let caret := match e1 with c :: _ => beqb c cCaret | [] => false end in
      let! sec := if caret then Ok None else let! x := rx_compile (anyStar ++ e1) in Ok (Some x) in
      let! prim := rx_compile (if caret then tl e1 else e1) in
      Ok (mkRT (fst prim) (snd prim) sec expand (fun _ => []) (fun _ => []) [] false)
  end.
(* 65-84 *)
Definition rt_match (n : list comp) (t : rtop) : res (bool * rtop) :=
  let! x := match_list (t_prim t) n (t_caps1 t) in
  if fst x then Ok (true, mkRT (t_prim t) (t_pn t) (t_sec t) (t_expand t) (snd x) (t_caps2 t) n false)
  else match t_sec t with
       | Some s =>
           let! y := match_list (fst s) n (t_caps2 t) in
           Ok (fst y, mkRT (t_prim t) (t_pn t) (t_sec t) (t_expand t) (snd x) (snd y) (if fst y then n else []) (fst y))
       | None => Ok (false, mkRT (t_prim t) (t_pn t) (t_sec t) (t_expand t) (snd x) (t_caps2 t) [] false)
       end.
(* 133-176 getItemFromExpand: a literal, or a back reference number, and the rest *)
Inductive xitem := XLit (uri : bytes) | XRef (digits : bytes).
Definition getItem (s : bytes) : res (xitem * bytes) :=
  match s with
  | [] => Err ELogic (* not called *)
  | c :: s1 =>
      if beqb c cBack then
        match fst (span_digits s1) with
        | [] => Err ERuntime
        | d => Ok (XRef d, snd (span_digits s1))
        end
      else if beqb c cLt then
        match span_bal cLt cGt 1 s1 with
        | Some (a, (_ :: _) as rest) => Ok (XLit (removelast a), rest)
        | _ => Err ERuntime (* also when nothing follows the > *)
        end
      else Err ERuntime
  end.
(* boost::lexical_cast<size_t> of a string of digits *)
Definition cast_size (d : bytes) : res N := let n := fst (read_digits d 0) in if n <? two64 then Ok n else Err EBadCast.
(* 92-131 expand; Name::append(const std::string&) appends the components of the URI *)
Definition item_value (t : rtop) (x : xitem) : res (list comp) :=
  match x with
  | XLit u => let! n := nm_fromUri u in Ok (n_comps n)
  | XRef d =>
      let! i := cast_size d in
      if i =? 0 then Ok (t_result t)
      else if i <=? (if t_used t then match t_sec t with Some s => snd s | None => 0 end else t_pn t)
           then Ok ((if t_used t then t_caps2 t else t_caps1 t) (i - 1))
           else Err ERuntime
  end.
Fixpoint expand_loop (fuel : nat) (s : bytes) (t : rtop) : res (list comp) :=
  match fuel with
  | O => Err EFuel
  | S fuel' =>
      match s with
      | [] => Ok []
      | _ => let! x := getItem s in let! v := item_value t (fst x) in let! y := expand_loop fuel' (snd x) t in Ok (v ++ y)
      end
  end.
Definition rt_expand (s : bytes) (t : rtop) : res (list comp) :=
  let e := match s with [] => t_expand t | _ => s end in expand_loop (S (List.length e)) e t.
(* 178-194 fromName, 196-217 convertSpecialChar *)
Definition special (c : byte) : bool := existsb (fun x => beqb x c) (str ".[{}()\*+?|^$").
Definition convertSpecial (s : bytes) : bytes := flat_map (fun c => if special c then [cBack; c] else [c]) s.
Definition fromName (n : list comp) (hasAnchor : bool) : res rtop :=
  rt_new (cCaret :: List.concat (map (fun c => cLt :: convertSpecial (comp_toUri uf c) ++ [cGt]) n) ++ (if hasAnchor then [cDollar] else [])) [].
End Regex.
