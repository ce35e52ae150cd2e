(* Model of util/string-helper.{hpp,cpp} (hex and percent-encoding) and of the standard
   decimal conversions used for URIs. *)
From Verif Require Import Base M_Tlv.

(* characters *)
Definition ch (s : String.string) : byte := match str s with c :: _ => c | [] => x00 end.
Definition cPercent : byte := x25.
Definition cSlash : byte := x2f.
Definition cColon : byte := x3a.
Definition cEqual : byte := x3d.
Definition cPeriod : byte := x2e.

Definition between (lo hi : N) (b : byte) : bool := (lo <=? bn b) && (bn b <=? hi).

(* util/string-helper.hpp:122-128 toHexChar *)
Definition toHexChar (n : N) (upper : bool) : byte :=
  let d := n mod 16 in
  if d <? 10 then nb (48 + d) else nb ((if upper then 55 else 87) + d).

(* util/string-helper.hpp:133-140 fromHexChar; None for -1 *)
Definition fromHexChar (c : byte) : option N :=
  if between 48 57 c then Some (bn c - 48)
  else if between 65 70 c then Some (bn c - 65 + 10)
  else if between 97 102 c then Some (bn c - 97 + 10)
  else None.

(* util/string-helper.cpp:92-97 characters that are not escaped *)
Definition isUnreserved (c : byte) : bool :=
  between 97 122 c || between 65 90 c || between 48 57 c ||
  beqb c x2d || beqb c x2e || beqb c x5f || beqb c x7e.

(* util/string-helper.cpp:88-106 escape *)
Fixpoint escape (s : bytes) : bytes :=
  match s with
  | [] => []
  | c :: s' =>
      if isUnreserved c then c :: escape s'
      else cPercent :: toHexChar (bn c / 16) true :: toHexChar (bn c mod 16) true :: escape s'
  end.

(* util/string-helper.cpp:116-138 unescape *)
Fixpoint unescape (s : bytes) : bytes :=
  match s with
  | [] => []
  | c :: s' =>
      match s' with
      | h :: l :: rest =>
          if beqb c cPercent then
            match fromHexChar h, fromHexChar l with
            | Some hi, Some lo => nb (hi * 16 + lo) :: unescape rest
            | _, _ => c :: h :: l :: unescape rest
            end
          else c :: unescape s'
      | _ => c :: unescape s'
      end
  end.

(* util/string-helper.cpp:49-62 printHex/toHex: hexEncode over the whole buffer *)
Fixpoint toHex (upper : bool) (s : bytes) : bytes :=
  match s with
  | [] => []
  | c :: s' => toHexChar (bn c / 16) upper :: toHexChar (bn c mod 16) upper :: toHex upper s'
  end.

(* util/string-helper.cpp:64-78 fromHex: hexDecode over the whole string; StringHelperError
   (std::invalid_argument) on a bad character or an odd count *)
Fixpoint fromHex (s : bytes) : res bytes :=
  match s with
  | [] => Ok []
  | [_] => Err EInvalidArg
  | h :: l :: rest =>
      match fromHexChar h, fromHexChar l with
      | Some hi, Some lo => let! r := fromHex rest in Ok (nb (hi * 16 + lo) :: r)
      | _, _ => Err EInvalidArg
      end
  end.

(* std::to_string / operator<< of an unsigned integer: decimal digits without leading zeros *)
Fixpoint dec_digits (fuel : nat) (n : N) (acc : bytes) : bytes :=
  match fuel with
  | O => acc
  | S f =>
      let acc' := nb (48 + n mod 10) :: acc in
      if n <? 10 then acc' else dec_digits f (n / 10) acc'
  end.
Definition to_string (n : N) : bytes := dec_digits (S (N.size_nat n)) n [].

Definition isDigit (c : byte) : bool := between 48 57 c.
(* isspace in the "C" locale *)
Definition isSpace (c : byte) : bool := between 9 13 c || beqb c x20.

Fixpoint skip_spaces (s : bytes) : bytes :=
  match s with c :: s' => if isSpace c then skip_spaces s' else s | [] => [] end.
(* leading digits: how many, and their value *)
Fixpoint read_digits (s : bytes) (acc : N) : N * bool :=
  match s with
  | c :: s' => if isDigit c then (fst (read_digits s' (acc * 10 + (bn c - 48))), true) else (acc, false)
  | [] => (acc, false)
  end.

(* strtoul / strtoull (64-bit unsigned long), base 10: value, whether any digits were found,
   whether ERANGE was set *)
Definition strtoull (s : bytes) : N * bool * bool :=
  let s1 := skip_spaces s in
  let (neg, s2) := match s1 with
                   | c :: r => if beqb c x2d then (true, r) else if beqb c x2b then (false, r) else (false, s1)
                   | [] => (false, s1)
                   end in
  let (v, any) := read_digits s2 0 in
  if negb any then (0, false, false)
  else if two64 <=? v then (two64 - 1, true, true)
  else ((if neg then (two64 - v) mod two64 else v), true, false).

(* std::stoull *)
Definition stoull (s : bytes) : res N :=
  let '(v, any, range) := strtoull s in
  if negb any then Err EInvalidArg else if range then Err EOutOfRange else Ok v.

(* std::string_view::find(c): text before the first c, and text after it *)
Fixpoint split_at (c : byte) (s : bytes) : option (bytes * bytes) :=
  match s with
  | [] => None
  | x :: s' =>
      if beqb x c then Some ([], s')
      else match split_at c s' with Some (a, b) => Some (x :: a, b) | None => None end
  end.
