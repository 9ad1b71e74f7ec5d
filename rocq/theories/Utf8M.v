(** UTF-8 as the Rust standard library reads and writes it. Bytes are numbers below 256,
    characters are Unicode scalar values. *)
From Coq Require Import List NArith Bool.
Import ListNotations.
From Verif Require Import Text.
Local Open Scope N_scope.

Definition byte := N.

(** [char]: a code point that is not a surrogate. *)
Definition scalar (c : chr) : bool := (N.ltb c 55296 || (N.leb 57344 c && N.leb c 1114111)).

(** [char::encode_utf8]. *)
Definition encode_char (c : chr) : list byte :=
  if N.ltb c 128 then [c]
  else if N.ltb c 2048 then [192 + N.div c 64; 128 + N.modulo c 64]%N
  else if N.ltb c 65536 then [224 + N.div c 4096; 128 + N.modulo (N.div c 64) 64; 128 + N.modulo c 64]%N
  else [240 + N.div c 262144; 128 + N.modulo (N.div c 4096) 64; 128 + N.modulo (N.div c 64) 64; 128 + N.modulo c 64]%N.

Definition encode (t : text) : list byte := flat_map encode_char t.

Definition between (lo hi b : byte) : bool := N.leb lo b && N.leb b hi.

(** A continuation byte. *)
Definition cont (b : byte) : bool := between 128 191 b.

(** The second byte of a sequence of three, and of four: no overlong forms, no surrogates,
    nothing past the last code point ([core::str::lossy], [Utf8Chunks::next]). *)
Definition second3 (a b : byte) : bool :=
  if N.eqb a 224 then between 160 191 b
  else if N.eqb a 237 then between 128 159 b
  else cont b.
Definition second4 (a b : byte) : bool :=
  if N.eqb a 240 then between 144 191 b
  else if N.eqb a 244 then between 128 143 b
  else cont b.

(** The replacement character. *)
Definition bad : chr := 65533%N.

Definition join2 (a b : byte) : chr := ((a - 192) * 64 + (b - 128))%N.
Definition join3 (a b c : byte) : chr := ((a - 224) * 4096 + (b - 128) * 64 + (c - 128))%N.
Definition join4 (a b c d : byte) : chr := ((a - 240) * 262144 + (b - 128) * 4096 + (c - 128) * 64 + (d - 128))%N.

(** [String::from_utf8_lossy]: each maximal piece that cannot be part of a character becomes
    one replacement character ([core::str::lossy], [Utf8Chunks::next]). *)
Fixpoint lossy (bs : list byte) : text :=
  match bs with
  | [] => []
  | a :: r =>
      if N.ltb a 128 then a :: lossy r
      else if between 194 223 a then
        match r with
        | b :: r2 => if cont b then join2 a b :: lossy r2 else bad :: lossy r
        | [] => [bad]
        end
      else if between 224 239 a then
        match r with
        | b :: r2 =>
            if second3 a b then
              match r2 with
              | c :: r3 => if cont c then join3 a b c :: lossy r3 else bad :: lossy r2
              | [] => [bad]
              end
            else bad :: lossy r
        | [] => [bad]
        end
      else if between 240 244 a then
        match r with
        | b :: r2 =>
            if second4 a b then
              match r2 with
              | c :: r3 =>
                  if cont c then
                    match r3 with
                    | d :: r4 => if cont d then join4 a b c d :: lossy r4 else bad :: lossy r3
                    | [] => [bad]
                    end
                  else bad :: lossy r2
              | [] => [bad]
              end
            else bad :: lossy r
        | [] => [bad]
        end
      else bad :: lossy r
  end.

(** [String::from_utf8], used by [read_to_string]: only bytes that are the encoding of a
    text are accepted. Written with [lossy]: the bytes are valid iff reading them loses
    nothing. *)
Fixpoint bytes_eqb (a b : list byte) : bool :=
  match a, b with
  | [], [] => true
  | x :: a, y :: b => N.eqb x y && bytes_eqb a b
  | _, _ => false
  end.
Definition from_utf8 (bs : list byte) : option text :=
  if bytes_eqb (encode (lossy bs)) bs then Some (lossy bs) else None.
