(* Model of util/indented-stream.cpp: a stream that prefixes each line. *)
From Verif Require Import Base.
Open Scope list_scope.
Open Scope N_scope.

(* indented-stream.hpp:72 std::string, as character codes *)
Definition text := list N.
(* indented-stream.cpp:56 the separator '\n' *)
Definition newline : N := 10.
(* indented-stream.cpp:56 boost::split at newlines: one piece more than there are newlines *)
Fixpoint split_lines (t : text) : list text :=
  match t with
  | [] => [[]]
  | c :: t' => if c =? newline then [] :: split_lines t' else match split_lines t' with x :: r => (c :: x) :: r | [] => [[c]] end
  end.
(* indented-stream.cpp:58-60 a last piece that is empty is dropped *)
Fixpoint drop_empty_last (l : list text) : list text :=
  match l with
  | [] => []
  | [x] => match x with [] => [] | _ => [x] end
  | x :: l' => x :: drop_empty_last l'
  end.
(* indented-stream.cpp:49-66 sync: what is written to the stream below *)
Definition ist_sync (indent buf : text) : text := flat_map (fun line => indent ++ line ++ [newline]) (drop_empty_last (split_lines buf)).
(* indented-stream.hpp:53 std::ostream operations on the stream: writing into the buffer, flush (which calls sync) *)
Inductive iop := Write (t : text) | Flush.
(* indented-stream.cpp:49-66 the buffer after, and the output below; line 64 empties the buffer *)
Definition ist_step (indent buf : text) (o : iop) : text * text :=
  match o with Write t => (buf ++ t, []) | Flush => ([], ist_sync indent buf) end.
(* indented-stream.cpp:38-66 a history of operations; the destructor flushes *)
Fixpoint ist_run (indent buf : text) (ops : list iop) : text :=
  match ops with [] => ist_sync indent buf | o :: ops' => let (buf', out) := ist_step indent buf o in out ++ ist_run indent buf' ops' end.
(* indented-stream.cpp:32-41 all that a stream prints from its construction to its destruction *)
Definition printed (indent : text) (ops : list iop) : text := ist_run indent [] ops.
