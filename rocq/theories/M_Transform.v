(* Model of security/transform: transform-base.cpp, hex-encode.cpp, hex-decode.cpp, strip-space.cpp, buffer-source.cpp, step-source.cpp.
   Not modelled: the base64, cipher, digest, signer and verifier modules, which wrap OpenSSL; StreamSource; module indexes; failing allocations. *)
From Verif Require Import Base.

(* A sink (transform-base.hpp Sink).  It is told from outside how many octets successive calls of doWrite take, at most (Some), or that
   they throw (None); when the schedule is used up it takes everything, as StreamSink and BoolSink always do. *)
Record sink := mkSink { k_sched : list (option N); k_got : bytes; k_end : bool }.
(* transform-base.cpp:32-41 Downstream::write, on a sink *)
Definition sk_write (k : sink) (buf : bytes) : sink * res N :=
  if k_end k then (k, Err ERuntime)
  else match k_sched k with
       | [] => (mkSink [] (k_got k ++ buf) false, Ok (nlen buf))
       | None :: l => (mkSink l (k_got k) false, Err ERuntime)
       | Some m :: l => (mkSink l (k_got k ++ ntake m buf) false, Ok (N.min m (nlen buf)))
       end.
(* transform-base.cpp:43-51 Downstream::end, on a sink *)
Definition sk_end (k : sink) : sink * option err := (mkSink (k_sched k) (k_got k) true, None).

(* hex-encode.cpp:26-36 H2CL, H2CU *)
Definition H2C (upper : bool) (d : N) : byte := nb (if d <? 10 then 48 + d else if upper then 55 + d else 87 + d).
(* hex-encode.cpp:45-60 toHex *)
Definition toHex (upper : bool) (data : bytes) : bytes := flat_map (fun b => [H2C upper (bn b / 16); H2C upper (bn b mod 16)]) data.
(* hex-decode.cpp:27-46 C2H; None for -1 *)
Definition C2H (c : byte) : option N :=
  if (48 <=? bn c) && (bn c <=? 57) then Some (bn c - 48)
  else if (65 <=? bn c) && (bn c <=? 70) then Some (bn c - 55)
  else if (97 <=? bn c) && (bn c <=? 102) then Some (bn c - 87)
  else None.
(* hex-decode.cpp:82-100: one octet of output *)
Definition hex_pair (a b : byte) : res byte :=
  match C2H b, C2H a with Some lo, Some hi => Ok (nb (16 * hi + lo)) | _, _ => Err ERuntime end.
(* hex-decode.cpp:91-99 the loop of toBytes *)
Fixpoint hex_pairs (hex : bytes) : res bytes :=
  match hex with
  | a :: b :: rest => let! x := hex_pair a b in let! y := hex_pairs rest in Ok (x :: y)
  | _ => Ok []
  end.
(* hex-decode.cpp:75-103 toBytes *)
Definition toBytes (odd : option byte) (hex : bytes) : res bytes :=
  match odd, hex with
  | Some a, b :: rest => let! x := hex_pair a b in let! y := hex_pairs rest in Ok (x :: y)
  | Some _, [] => Err EUb               (* reads hex[0] *)
  | None, _ => hex_pairs hex
  end.

(* the transforms; the state of one: m_hasOddByte and m_oddByte (HexDecode), the part of m_oBuffer from m_outputOffset, m_isEnd *)
Inductive tkind := HexEncode (upper : bool) | HexDecode | StripSpace (ws : byte -> bool).
Record tstate := mkT { t_kind : tkind; t_odd : option byte; t_out : bytes; t_end : bool }.
Definition t_new (k : tkind) : tstate := mkT k None [] false.
Definition t_setOut (o : bytes) (t : tstate) : tstate := mkT (t_kind t) (t_odd t) o (t_end t).
Definition t_isEmpty (t : tstate) : bool := match t_out t with [] => true | _ => false end.
(* transform-base.cpp:83-89 setOutputBuffer *)
Definition t_setOutputBuffer (o : bytes) (t : tstate) : tstate * option err := if t_isEmpty t then (t_setOut o t, None) else (t, Some EAssert).
(* convert: hex-encode.cpp:38-43, hex-decode.cpp:48-66, strip-space.cpp:35-49 *)
Definition t_convert (data : bytes) (t : tstate) : tstate * res N :=
  match t_kind t with
  | HexEncode u => let (t1, x) := t_setOutputBuffer (toHex u data) t in (t1, match x with Some e => Err e | None => Ok (nlen data) end)
  | StripSpace ws => let (t1, x) := t_setOutputBuffer (filter (fun c => negb (ws c)) data) t in (t1, match x with Some e => Err e | None => Ok (nlen data) end)
  | HexDecode =>
      match data with
      | [] => (t, Ok 0)
      | _ =>
          match toBytes (t_odd t) data with
          | Err e => (t, Err e)
          | Ok o =>
              let (t1, x) := t_setOutputBuffer o t in
              match x with
              | Some e => (t1, Err e)
              | None =>
                  let total := nlen data + match t_odd t with Some _ => 1 | None => 0 end in
                  (mkT (t_kind t1) (if total mod 2 =? 1 then Some (last data x00) else None) (t_out t1) (t_end t1), Ok (nlen data))
              end
          end
      end
  end.

(* A transform in front of a downstream with state D *)
Section Transform.
Context {D : Type} (dwrite : D -> bytes -> D * res N) (dend : D -> D * option err).
(* transform-base.cpp:65-73 flushOutputBuffer *)
Definition t_flush (t : tstate) (d : D) : (tstate * D) * option err :=
  if t_isEmpty t then ((t, d), None)
  else let (d1, r) := dwrite d (t_out t) in
       match r with
       | Err e => ((t, d1), Some e)
       | Ok n => ((t_setOut (ndrop n (t_out t)) t, d1), None)
       end.
(* transform-base.cpp:75-81 flushAllOutput *)
Fixpoint t_flushAll (fuel : nat) (t : tstate) (d : D) : (tstate * D) * option err :=
  if t_isEmpty t then ((t, d), None)
  else match fuel with
       | O => ((t, d), Some EFuel)
       | S f => match t_flush t d with
                | ((t1, d1), None) => t_flushAll f t1 d1
                | (s1, Some e) => (s1, Some e)
                end
       end.
(* transform-base.cpp:97-112 doWrite, in Downstream::write (32-41); preTransform does nothing in the three transforms, so the second
   flush (105) finds an empty buffer *)
Definition t_write (s : tstate * D) (buf : bytes) : (tstate * D) * res N :=
  let (t, d) := s in
  if t_end t then (s, Err ERuntime)
  else match t_flush t d with
       | (s1, Some e) => (s1, Err e)
       | ((t1, d1), None) =>
           if negb (t_isEmpty t1) then ((t1, d1), Ok 0)
           else
             let (t2, r) := t_convert buf t1 in
             match r with
             | Err e => ((t2, d1), Err e)
             | Ok n => match t_flush t2 d1 with
                       | (s3, Some e) => (s3, Err e)
                       | (s3, None) => (s3, Ok n)
                       end
             end
       end.
(* transform-base.cpp:114-119 doEnd, in Downstream::end (43-51); finalize: transform-base.cpp:126-130, hex-decode.cpp:68-73 *)
Definition t_endM (fuel : nat) (s : tstate * D) : (tstate * D) * option err :=
  let (t, d) := s in
  if t_end t then (s, None)
  else
    let t0 := mkT (t_kind t) (t_odd t) (t_out t) true in
    match (match t_kind t, t_odd t with
           | HexDecode, Some _ => ((t0, d), Some ERuntime)
           | HexDecode, None => ((t0, d), None)
           | _, _ => t_flushAll fuel t0 d
           end) with
    | (s1, Some e) => (s1, Some e)
    | ((t1, d1), None) => let (d2, x) := dend d1 in ((t1, d2), x)
    end.
End Transform.

(* a chain of n transforms and a sink *)
Fixpoint chain (n : nat) : Type := match n with O => sink | S m => (tstate * chain m)%type end.
Fixpoint ch_sched (n : nat) : chain n -> list (option N) :=
  match n return chain n -> list (option N) with O => k_sched | S m => fun s => ch_sched m (snd s) end.
Fixpoint ch_write (n : nat) : chain n -> bytes -> chain n * res N :=
  match n return chain n -> bytes -> chain n * res N with O => sk_write | S m => t_write (ch_write m) end.
(* the loop in flushAllOutput is given as many rounds as the sink can refuse octets; more are not needed (P_Transform) *)
Fixpoint ch_end (n : nat) : chain n -> chain n * option err :=
  match n return chain n -> chain n * option err with
  | O => sk_end
  | S m => fun s => t_endM (ch_write m) (ch_end m) (S (length (ch_sched m (snd s)))) s
  end.
(* transform-base.cpp:53-63, 138-156: source >> transform >> ... >> sink *)
Fixpoint ch_new (ks : list tkind) (sched : list (option N)) : chain (length ks) :=
  match ks return chain (length ks) with
  | [] => mkSink sched [] false
  | k :: ks' => (t_new k, ch_new ks' sched)
  end.
Fixpoint ch_sink (n : nat) : chain n -> sink := match n return chain n -> sink with O => fun s => s | S m => fun s => ch_sink m (snd s) end.

(* buffer-source.cpp:46-52 the inner loop *)
Fixpoint bs_buffer (n : nat) (fuel : nat) (c : chain n) (buf : bytes) : chain n * option err :=
  match buf with
  | [] => (c, None)
  | _ => match fuel with
         | O => (c, Some EFuel)
         | S f => match ch_write n c buf with
                  | (c1, Ok m) => bs_buffer n f c1 (ndrop m buf)
                  | (c1, Err e) => (c1, Some e)
                  end
         end
  end.
(* buffer-source.cpp:41-55 doPump *)
Fixpoint bs_pump (n : nat) (c : chain n) (bufs : list bytes) : chain n * option err :=
  match bufs with
  | [] => ch_end n c
  | b :: bufs' => match bs_buffer n (S (length (ch_sched n c))) c b with
                  | (c1, None) => bs_pump n c1 bufs'
                  | (c1, Some e) => (c1, Some e)
                  end
  end.
(* step-source.cpp:26-36: the application calls write and end *)
Inductive sop := SWrite (buf : bytes) | SEnd.
Definition ss_step (n : nat) (o : sop) (c : chain n) : chain n * res N :=
  match o with
  | SWrite b => ch_write n c b
  | SEnd => let (c1, x) := ch_end n c in (c1, match x with Some e => Err e | None => Ok 0 end)
  end.
Fixpoint ss_run (n : nat) (l : list sop) (c : chain n) : chain n * list (res N) :=
  match l with
  | [] => (c, [])
  | o :: l' => let (c1, r) := ss_step n o c in let (c2, rs) := ss_run n l' c1 in (c2, r :: rs)
  end.
