(* Vocabulary of the statements about indented streams. *)
From Verif Require Import Base M_Indent.
Open Scope list_scope.
Open Scope N_scope.

(* out is the text t with p before each of its lines, the last line being completed *)
Inductive indented (p : text) : text -> text -> Prop :=
| ind_nil : indented p [] []
| ind_line : forall l t out, ~ In 10 l -> indented p t out -> indented p (l ++ [10] ++ t) (p ++ l ++ [10] ++ out)
| ind_rest : forall l, ~ In 10 l -> l <> [] -> indented p l (p ++ l ++ [10]).
(* all the text written *)
Definition written (ops : list iop) : text := flat_map (fun o => match o with Write t => t | Flush => [] end) ops.
(* the texts written from one flush to the next, the first one continuing acc *)
Fixpoint segments (acc : text) (ops : list iop) : list text :=
  match ops with [] => [acc] | Write t :: r => segments (acc ++ t) r | Flush :: r => acc :: segments [] r end.
(* empty, or ending in a newline *)
Definition whole (t : text) : Prop := t = [] \/ exists u, t = u ++ [10].
(* every flush comes when whole lines have been written *)
Definition flushed_at_lines (ops : list iop) : Prop := forall h1 h2, ops = h1 ++ Flush :: h2 -> whole (written h1).
