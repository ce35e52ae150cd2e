(* C101: what an indented stream prints. *)
From Verif Require Import Base BaseLemmas M_Indent S_Indent P_Indent.
Open Scope list_scope.
Open Scope N_scope.

(* C101: for every history of writes and flushes the output is, for the text between each flush and the next, that text with the prefix before each line. *)
Theorem C101_flushes : forall p ops, exists outs, Forall2 (indented p) (segments [] ops) outs /\ printed p ops = concat outs.
Proof.
  intros p ops. exists (map (ist_sync p) (segments [] ops)). split; [|unfold printed; rewrite run_segments; apply flat_map_concat_map].
  induction (segments [] ops) as [|t l IH]; constructor; auto. now apply indented_iff.
Qed.
Print Assumptions C101_flushes.
(* C101: if flushes come after whole lines, they do not show: the output is all the text written with the prefix before each line, and nothing else is. *)
Theorem C101_lines : forall p ops, flushed_at_lines ops -> forall out, indented p (written ops) out <-> out = printed p ops.
Proof. intros p ops H out. unfold printed. rewrite (run_whole p ops []); [apply indented_iff|exact H]. Qed.
Print Assumptions C101_lines.
(* C101: how the text is cut into writes does not matter. *)
Theorem C101_writes : forall p ops ops', segments [] ops = segments [] ops' -> printed p ops = printed p ops'.
Proof. intros p ops ops' E. unfold printed. now rewrite !run_segments, E. Qed.
Print Assumptions C101_writes.
(* C101: whole lines can be read back from the output. *)
Theorem C101_read_back : forall p ops ops', flushed_at_lines ops -> flushed_at_lines ops' -> whole (written ops) -> whole (written ops') ->
  printed p ops = printed p ops' -> written ops = written ops'.
Proof.
  intros p ops ops' F F' W W' E. apply (indented_inj p (written ops) (printed p ops)); auto; [now apply C101_lines|]. rewrite E. now apply C101_lines.
Qed.
Print Assumptions C101_read_back.
(* C101: a stream with prefix q on a stream with prefix p is a stream with prefix p q, for every history, if q has no newline. *)
Theorem C101_nested : forall p q ops, ~ In 10 q -> printed p [Write (printed q ops)] = printed (p ++ q) ops.
Proof. intros p q ops N. unfold printed. cbn [ist_run ist_step app]. rewrite !run_segments. now apply concat_nested. Qed.
Print Assumptions C101_nested.
(* A flush within a line breaks the line: C101_lines needs its hypothesis. *)
Theorem C101_midline_refuted : exists p ops, ~ indented p (written ops) (printed p ops).
Proof. exists [32], [Write [97]; Flush; Write [98]]. rewrite indented_iff. vm_compute. discriminate. Qed.
Print Assumptions C101_midline_refuted.

(* "> " before "ab", "" and "c", with a flush after the first line *)
Example C101_ex :
  let ops := [Write [97]; Write [98; 10]; Flush; Write [10; 99]] in
  flushed_at_lines ops /\ printed [62; 32] ops = [62; 32; 97; 98; 10; 62; 32; 10; 62; 32; 99; 10] /\ segments [] ops = [[97; 98; 10]; [10; 99]].
Proof.
  cbv zeta. split; [|split; reflexivity]. intros h1 h2 E. destruct h1 as [|x [|y [|z [|w [|]]]]]; try discriminate. injection E as <- <- _. right. now exists [97; 98].
Qed.
Example C101_nested_ex : printed [45] [Write (printed [62] [Write [97; 10; 98]])] = [45; 62; 97; 10; 45; 62; 98; 10].
Proof. reflexivity. Qed.
Example C101_read_back_ex : whole (written [Write [97]; Write [98; 10]]) /\ flushed_at_lines [Write [97]; Write [98; 10]].
Proof. split; [right; now exists [97; 98]|]. intros h1 h2 E. destruct h1 as [|x [|y [|]]]; discriminate. Qed.
