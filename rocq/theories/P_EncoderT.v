(* C07/C08 in terms of the octets each operation contributes *)
From Coq Require Import Lia ZifyBool ZifyNat ZifyN.
From Verif Require Import Base BaseLemmas M_Tlv P_Tlv M_Encoder P_Encoder M_Block S_Tlv S_Block P_Block.

Definition op_piece (op : enc_op) : bytes * bytes :=
  match op with
  | PrependBytes v => (v, [])
  | AppendBytes v => ([], v)
  | PrependVarNumber n => (encVarNumber n, [])
  | AppendVarNumber n => ([], encVarNumber n)
  | PrependNNI n => (encNNI n, [])
  | AppendNNI n => ([], encNNI n)
  | _ => ([], [])
  end.

Lemma op_piece_adds : forall op, op_arg_ok op -> op_adds op (op_piece op).
Proof.
  intros [] H; cbn in *; constructor; auto using encVarNumber_shortest, encNNI_shortest.
Qed.

Lemma fold_pieces : forall ops c,
  fold_left (fun c op => op_contents op c) ops c =
  concat (rev (map fst (map op_piece ops))) ++ c ++ concat (map snd (map op_piece ops)).
Proof.
  induction ops as [|op ops IH]; intro c; cbn [fold_left map rev concat].
  - now rewrite app_nil_r.
  - rewrite IH, concat_app. cbn [concat]. rewrite app_nil_r.
    destruct op; cbn [op_contents op_piece fst snd]; rewrite <- ?app_assoc, ?app_nil_r; reflexivity.
Qed.

Lemma encoder_contents : forall total reserve ops, Forall op_arg_ok ops ->
  exists n e pieces, en_run ops (newEncoder total reserve) = Ok (n, e) /\
    Forall2 op_adds ops pieces /\
    en_contents e = concat (rev (map fst pieces)) ++ concat (map snd pieces).
Proof.
  intros total reserve ops A. destruct (newEncoder_split total reserve) as (a & z & S).
  destruct (run_split ops _ a [] z S) as (n & e & a' & z' & E & _ & S').
  exists n, e, (map op_piece ops). splits; auto.
  - clear E S'. induction A; cbn; constructor; auto using op_piece_adds.
  - apply en_split_contents in S'. rewrite S', fold_pieces. reflexivity.
Qed.

Lemma estimator_agrees : forall total reserve ops,
  exists n e, en_run ops (newEncoder total reserve) = Ok (n, e) /\
    N.of_nat n = est_run ops /\ nlen (en_contents e) = est_run ops.
Proof.
  intros total reserve ops. destruct (newEncoder_split total reserve) as (a & z & S).
  destruct (run_split ops _ a [] z S) as (n & e & a' & z' & E & Hn & S').
  exists n, e. splits; auto. apply en_split_contents in S'. rewrite S', fold_contents_len.
  change (nlen (@nil byte)) with 0. lia.
Qed.
