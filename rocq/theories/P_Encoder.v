(* Proofs about M_Encoder: refinement of the storage to its contents *)
From Coq Require Import Lia ZifyBool ZifyNat ZifyN.
From Verif Require Import Base BaseLemmas M_Tlv P_Tlv M_Encoder.

(* what an operation does to the contents *)
Definition op_contents (op : enc_op) (c : bytes) : bytes :=
  match op with
  | PrependBytes v => v ++ c
  | AppendBytes v => c ++ v
  | PrependVarNumber n => encVarNumber n ++ c
  | AppendVarNumber n => c ++ encVarNumber n
  | PrependNNI n => encNNI n ++ c
  | AppendNNI n => c ++ encNNI n
  | ReserveFront _ | ReserveBack _ | Reserve _ _ => c
  end.

Definition en_inv (e : encoder) : Prop :=
  (en_begin e <= en_end e /\ en_end e <= length (en_buf e))%nat.

(* explicit decomposition of the storage *)
Definition en_split (e : encoder) (a c z : bytes) : Prop :=
  en_buf e = a ++ c ++ z /\ en_begin e = length a /\ en_end e = length (a ++ c).

Lemma en_split_contents : forall e a c z, en_split e a c z -> en_contents e = c.
Proof.
  intros e a c z (Hb & H1 & H2). unfold en_contents. rewrite Hb, H1, H2, app_assoc.
  rewrite firstn_app, firstn_all, Nat.sub_diag. cbn [firstn]. rewrite app_nil_r.
  rewrite skipn_app, skipn_all, Nat.sub_diag. reflexivity.
Qed.

Lemma reserve_split : forall s f e a c z, en_split e a c z ->
  exists a' z', en_split (en_reserve s f e) a' c z' /\
    length (en_buf (en_reserve s f e)) = Nat.max s (length (en_buf e)) /\
    (if f then (length a' = length a + (Nat.max s (length (en_buf e)) - length (en_buf e)) /\ z' = z)%nat
     else a' = a).
Proof.
  intros s f e a c z (Hb & H1 & H2). unfold en_reserve.
  set (old := length (en_buf e)).
  assert (Hs : (if Nat.ltb s old then old else s) = Nat.max s old).
  { destruct (Nat.ltb_spec s old); lia. }
  rewrite Hs. set (m := Nat.max s old). assert (Hm : (old <= m)%nat) by lia.
  assert (Ho : old = (length a + length c + length z)%nat).
  { unfold old. rewrite Hb, !app_length. lia. }
  destruct f.
  - exists (repeat x00 (m - old) ++ a), z. unfold en_split. cbn [en_buf en_begin en_end].
    rewrite H1, H2, Hb. rewrite !app_length, repeat_length.
    repeat split; try lia. now rewrite <- app_assoc.
  - exists a, (z ++ repeat x00 (m - old)). unfold en_split. cbn [en_buf en_begin en_end].
    rewrite H1, H2, Hb. rewrite !app_length, repeat_length.
    repeat split; try lia. now rewrite <- !app_assoc.
Qed.

Lemma reserveFront_split : forall s e a c z, en_split e a c z ->
  exists a' z', en_split (en_reserveFront s e) a' c z' /\ (s <= length a')%nat.
Proof.
  intros s e a c z S. unfold en_reserveFront. pose proof S as (Hb & H1 & H2).
  destruct (Nat.ltb_spec (en_begin e) s).
  - destruct (reserve_split (length (en_buf e) * 2 + s) true e a c z S) as (a' & z' & S' & HL & Ha & _).
    exists a', z'. split; auto. lia.
  - exists a, z. split; auto. lia.
Qed.

Lemma reserveBack_split : forall s e a c z, en_split e a c z ->
  exists a' z', en_split (en_reserveBack s e) a' c z' /\ (s <= length z')%nat.
Proof.
  intros s e a c z S. unfold en_reserveBack. pose proof S as (Hb & H1 & H2).
  destruct (Nat.ltb_spec (length (en_buf e)) (en_end e + s)).
  - destruct (reserve_split (length (en_buf e) * 2 + s) false e a c z S) as (a' & z' & S' & HL & Ha).
    exists a', z'. split; auto. destruct S' as (Hb' & _ & _). rewrite Hb', Ha, !app_length in HL.
    rewrite Hb, !app_length in HL. lia.
  - exists a, z. split; auto. rewrite Hb, H2, !app_length in *. lia.
Qed.

Lemma write_at_mid : forall a x y v, length x = length v ->
  write_at (length a) v (a ++ x ++ y) = Ok (a ++ v ++ y).
Proof.
  intros a x y v H. unfold write_at. rewrite !app_length.
  destruct (Nat.leb_spec (length a + length v) (length a + (length x + length y))); [|lia].
  rewrite firstn_app, firstn_all, Nat.sub_diag. cbn [firstn]. rewrite app_nil_r.
  do 3 f_equal. rewrite app_assoc, <- H, <- app_length, skipn_app, skipn_all, Nat.sub_diag.
  reflexivity.
Qed.

Lemma split_last : forall (l : bytes) n, (n <= length l)%nat ->
  exists a b, l = a ++ b /\ length b = n /\ length a = (length l - n)%nat.
Proof.
  intros l n H. exists (firstn (length l - n) l), (skipn (length l - n) l).
  rewrite firstn_skipn, skipn_length, firstn_length. repeat split; lia.
Qed.

Lemma split_first : forall (l : bytes) n, (n <= length l)%nat ->
  exists a b, l = a ++ b /\ length a = n.
Proof.
  intros l n H. exists (firstn n l), (skipn n l).
  rewrite firstn_skipn, firstn_length. split; [auto|lia].
Qed.

Lemma prependBytes_split : forall v e a c z, en_split e a c z ->
  exists e' a' z', en_prependBytes v e = Ok (length v, e') /\ en_split e' a' (v ++ c) z'.
Proof.
  intros v e a c z S. unfold en_prependBytes.
  destruct (reserveFront_split (length v) e a c z S) as (a1 & z1 & (Hb & H1 & H2) & HL).
  set (e1 := en_reserveFront (length v) e) in *.
  destruct (Nat.ltb_spec (en_begin e1) (length v)); [lia|].
  destruct (split_last a1 (length v) HL) as (a2 & x & -> & Hx & Ha2).
  replace (en_begin e1 - length v)%nat with (length a2) by lia.
  rewrite Hb, <- app_assoc, write_at_mid by auto. cbn [bind].
  exists (mkEncoder (a2 ++ v ++ c ++ z1) (length a2) (en_end e1)), a2, z1.
  split; auto. unfold en_split. cbn [en_buf en_begin en_end].
  rewrite H2, <- !app_assoc, !app_length. repeat split; lia.
Qed.

Lemma appendBytes_split : forall v e a c z, en_split e a c z ->
  exists e' a' z', en_appendBytes v e = Ok (length v, e') /\ en_split e' a' (c ++ v) z'.
Proof.
  intros v e a c z S. unfold en_appendBytes.
  destruct (reserveBack_split (length v) e a c z S) as (a1 & z1 & (Hb & H1 & H2) & HL).
  set (e1 := en_reserveBack (length v) e) in *.
  destruct (split_first z1 (length v) HL) as (x & z2 & -> & Hx).
  rewrite Hb, H2, app_assoc, write_at_mid by auto. cbn [bind].
  exists (mkEncoder ((a1 ++ c) ++ v ++ z2) (en_begin e1) (length (a1 ++ c) + length v)), a1, z2.
  split; auto. unfold en_split. cbn [en_buf en_begin en_end].
  rewrite H1, <- !app_assoc, !app_length. repeat split; lia.
Qed.

Lemma step_split : forall op e a c z, en_split e a c z ->
  exists n e' a' z', en_step op e = Ok (n, e') /\ N.of_nat n = est_step op /\
    en_split e' a' (op_contents op c) z'.
Proof.
  intros op e a c z S. destruct op as [v|v|n|n|n|n|s|s|s f]; cbn [en_step est_step op_contents].
  - destruct (prependBytes_split v e a c z S) as (e' & a' & z' & H & S'). eauto 10.
  - destruct (appendBytes_split v e a c z S) as (e' & a' & z' & H & S'). eauto 10.
  - unfold en_prependVarNumber, sizeOfVarNumber, encVarNumber.
    destruct (n <? 253).
    { destruct (prependBytes_split [nb n] e a c z S) as (e' & a' & z' & H & S').
      rewrite H. cbn [bind snd]. do 4 eexists. repeat split; eauto; apply S'. }
    destruct (n <=? 65535).
    { destruct (prependBytes_split (be_enc 2 n) e a c z S) as (e1 & a1 & z1 & -> & S1). cbn [bind snd].
      destruct (prependBytes_split [nb 253] e1 a1 _ z1 S1) as (e2 & a2 & z2 & -> & S2). cbn [bind snd].
      do 4 eexists. split; [reflexivity|]. split; [reflexivity|]. exact S2. }
    destruct (n <=? 4294967295).
    { destruct (prependBytes_split (be_enc 4 n) e a c z S) as (e1 & a1 & z1 & -> & S1). cbn [bind snd].
      destruct (prependBytes_split [nb 254] e1 a1 _ z1 S1) as (e2 & a2 & z2 & -> & S2). cbn [bind snd].
      do 4 eexists. split; [reflexivity|]. split; [reflexivity|]. exact S2. }
    { destruct (prependBytes_split (be_enc 8 n) e a c z S) as (e1 & a1 & z1 & -> & S1). cbn [bind snd].
      destruct (prependBytes_split [nb 255] e1 a1 _ z1 S1) as (e2 & a2 & z2 & -> & S2). cbn [bind snd].
      do 4 eexists. split; [reflexivity|]. split; [reflexivity|]. exact S2. }
  - unfold en_appendVarNumber, sizeOfVarNumber, encVarNumber.
    destruct (n <? 253).
    { destruct (appendBytes_split [nb n] e a c z S) as (e' & a' & z' & H & S').
      rewrite H. cbn [bind snd]. do 4 eexists. repeat split; eauto; apply S'. }
    destruct (n <=? 65535).
    { destruct (appendBytes_split [nb 253] e a c z S) as (e1 & a1 & z1 & -> & S1). cbn [bind snd].
      destruct (appendBytes_split (be_enc 2 n) e1 a1 _ z1 S1) as (e2 & a2 & z2 & -> & S2). cbn [bind snd].
      do 4 eexists. split; [reflexivity|]. split; [reflexivity|]. rewrite <- app_assoc in S2. exact S2. }
    destruct (n <=? 4294967295).
    { destruct (appendBytes_split [nb 254] e a c z S) as (e1 & a1 & z1 & -> & S1). cbn [bind snd].
      destruct (appendBytes_split (be_enc 4 n) e1 a1 _ z1 S1) as (e2 & a2 & z2 & -> & S2). cbn [bind snd].
      do 4 eexists. split; [reflexivity|]. split; [reflexivity|]. rewrite <- app_assoc in S2. exact S2. }
    { destruct (appendBytes_split [nb 255] e a c z S) as (e1 & a1 & z1 & -> & S1). cbn [bind snd].
      destruct (appendBytes_split (be_enc 8 n) e1 a1 _ z1 S1) as (e2 & a2 & z2 & -> & S2). cbn [bind snd].
      do 4 eexists. split; [reflexivity|]. split; [reflexivity|]. rewrite <- app_assoc in S2. exact S2. }
  - unfold en_prependNNI, sizeOfNonNegativeInteger, encNNI.
    destruct (n <=? 255); [|destruct (n <=? 65535); [|destruct (n <=? 4294967295)]];
    match goal with |- context [en_prependBytes ?v e] =>
      destruct (prependBytes_split v e a c z S) as (e' & a' & z' & H & S'); rewrite H end;
    do 4 eexists; (split; [reflexivity|]); (split; [reflexivity|]); exact S'.
  - unfold en_appendNNI, sizeOfNonNegativeInteger, encNNI.
    destruct (n <=? 255); [|destruct (n <=? 65535); [|destruct (n <=? 4294967295)]];
    match goal with |- context [en_appendBytes ?v e] =>
      destruct (appendBytes_split v e a c z S) as (e' & a' & z' & H & S'); rewrite H end;
    do 4 eexists; (split; [reflexivity|]); (split; [reflexivity|]); exact S'.
  - destruct (reserveFront_split s e a c z S) as (a' & z' & S' & _). eauto 10.
  - destruct (reserveBack_split s e a c z S) as (a' & z' & S' & _). eauto 10.
  - destruct (reserve_split s f e a c z S) as (a' & z' & S' & _). eauto 10.
Qed.

Lemma run_split : forall ops e a c z, en_split e a c z ->
  exists n e' a' z', en_run ops e = Ok (n, e') /\ N.of_nat n = est_run ops /\
    en_split e' a' (fold_left (fun c op => op_contents op c) ops c) z'.
Proof.
  induction ops as [|op ops IH]; intros e a c z S.
  - cbn. eauto 10.
  - cbn [en_run fold_left est_run fold_right].
    destruct (step_split op e a c z S) as (n1 & e1 & a1 & z1 & -> & Hn1 & S1). cbn [bind fst snd].
    destruct (IH e1 a1 _ z1 S1) as (n2 & e2 & a2 & z2 & -> & Hn2 & S2). cbn [bind fst snd].
    do 4 eexists. split; [reflexivity|]. split; [|exact S2].
    unfold est_run in Hn2. lia.
Qed.

Lemma newEncoder_split : forall t b, exists a z, en_split (newEncoder t b) a [] z.
Proof.
  intros t b. unfold newEncoder.
  set (p := (t - (if Nat.ltb b t then b else 0))%nat).
  assert (Hp : (p <= t)%nat) by lia.
  exists (repeat x00 p), (repeat x00 (t - p)). unfold en_split. cbn [en_buf en_begin en_end app].
  rewrite app_nil_r, repeat_length, <- repeat_app. repeat split; auto. f_equal. lia.
Qed.

Lemma op_contents_len : forall op c, nlen (op_contents op c) = nlen c + est_step op.
Proof.
  intros op c. destruct op; cbn [op_contents est_step];
    rewrite ?nlen_app, ?encVarNumber_len, ?encNNI_len; lia.
Qed.

Lemma fold_contents_len : forall ops c,
  nlen (fold_left (fun c op => op_contents op c) ops c) = nlen c + est_run ops.
Proof.
  induction ops as [|op ops IH]; intro c; cbn [fold_left est_run fold_right]; [lia|].
  rewrite IH, op_contents_len. unfold est_run. lia.
Qed.
