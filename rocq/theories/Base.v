(* Common vocabulary of the model: octets, results, lists with N lengths.
   Nothing here models a particular function of /repo. *)
From Coq Require Export NArith ZArith List Bool Init.Byte.
From Coq Require Import Strings.Byte Strings.Ascii Strings.String.
Export StringSyntax.
Export ListNotations.
Open Scope N_scope.
Open Scope list_scope.

Definition bytes := list byte.

(* octet <-> number *)
Definition bn (b : byte) : N := Byte.to_N b.
Definition nb (n : N) : byte :=
  match Byte.of_N (n mod 256) with Some b => b | None => x00 end.

(* length as N; std::vector::size(), std::distance *)
Definition nlen {A} (l : list A) : N := N.of_nat (List.length l).

(* first n / all but first n, for N counts *)
Definition ntake {A} (n : N) (l : list A) : list A := firstn (N.to_nat n) l.
Definition ndrop {A} (n : N) (l : list A) : list A := skipn (N.to_nat n) l.

(* octet-string equality *)
Definition beqb (a b : byte) : bool := bn a =? bn b.
Fixpoint bytes_eqb (a b : bytes) : bool :=
  match a, b with
  | [], [] => true
  | x :: a', y :: b' => beqb x y && bytes_eqb a' b'
  | _, _ => false
  end.

(* ASCII text as octets, for examples and URI prefixes *)
Definition str (s : string) : bytes := List.map byte_of_ascii (list_ascii_of_string s).

(* limits of the C++ integer types *)
Definition two16 : N := 65536.
Definition two32 : N := 4294967296.
Definition two64 : N := 18446744073709551616.

(* Abnormal outcomes.  The first group are C++ exceptions; the second group are
   not catchable: undefined behaviour, a failed BOOST_ASSERT, std::terminate. *)
Inductive err :=
| ETlv            (* tlv::Error and subclasses *)
| EInvalidArg     (* std::invalid_argument *)
| EOutOfRange     (* std::out_of_range *)
| EDomain         (* std::domain_error *)
| ELength         (* std::length_error *)
| ELogic          (* std::logic_error *)
| ERuntime        (* std::runtime_error and subclasses other than tlv::Error *)
| EBadCast        (* boost::bad_lexical_cast *)
| EUb             (* undefined behaviour *)
| EAssert         (* BOOST_ASSERT failure *)
| ETerminate      (* exception leaving a noexcept function *)
| EFuel.          (* model ran out of recursion fuel *)

Definition catchable (e : err) : bool :=
  match e with EUb | EAssert | ETerminate | EFuel => false | _ => true end.

Inductive res (A : Type) :=
| Ok (a : A)
| Err (e : err).
Arguments Ok {A} a.
Arguments Err {A} e.

Definition bind {A B} (m : res A) (k : A -> res B) : res B :=
  match m with Ok a => k a | Err e => Err e end.
Notation "'let!' x ':=' m 'in' k" := (bind m (fun x => k))
  (at level 200, x pattern, m at level 100, k at level 200, right associativity).

Definition of_opt {A} (e : err) (o : option A) : res A :=
  match o with Some a => Ok a | None => Err e end.

Definition is_ok {A} (r : res A) : bool := match r with Ok _ => true | Err _ => false end.

Fixpoint map_res {A B} (f : A -> res B) (l : list A) : res (list B) :=
  match l with
  | [] => Ok []
  | x :: l' => let! y := f x in let! ys := map_res f l' in Ok (y :: ys)
  end.
