(** * Byte streams and byte orders (no proofs in this file).

    Models encoding/binary as used by io/filter_data.go, io/io.go, io/gadget2.go and
    cmd/memo/memoize.go.  A byte is a [Z] in [0, 256); a file or reader is the list of bytes still
    to be delivered.                                                                            *)
From Verif Require Export LoopBase.
Notation length := List.length.
Notation concat := List.concat.
Local Open Scope Z_scope.

(** Go: binary.LittleEndian, binary.BigEndian. *)
Inductive order := LE | BE.

Definition order_eqb (a b : order) : bool :=
  match a, b with LE, LE | BE, BE => true | _, _ => false end.

(** Go: the n low bytes of an unsigned word, least significant first, and back. *)
Fixpoint put_le (n : nat) (v : Z) : list Z :=
  match n with O => [] | S k => v mod 256 :: put_le k (v / 256) end.

Fixpoint get_le (bs : list Z) : Z :=
  match bs with [] => 0 | b :: bs' => b + 256 * get_le bs' end.

(** Go: order.PutUintN / order.UintN. *)
Definition put (o : order) (n : nat) (v : Z) : list Z :=
  match o with LE => put_le n v | BE => rev (put_le n v) end.

Definition get (o : order) (bs : list Z) : Z :=
  match o with LE => get_le bs | BE => get_le (rev bs) end.

(** Go: conversion of an n-byte signed integer to and from its two's complement bits. *)
Definition unsign (n : nat) (v : Z) : Z := v mod 256 ^ Z.of_nat n.
Definition sign (n : nat) (u : Z) : Z :=
  if 2 * u <? 256 ^ Z.of_nat n then u else u - 256 ^ Z.of_nat n.

Definition put_int (o : order) (n : nat) (v : Z) : list Z := put o n (unsign n v).
Definition get_int (o : order) (bs : list Z) : Z := sign (length bs) (get o bs).

(** Go: io.ReadFull(rd, buf) with len(buf) = n: n bytes, or an error that has consumed the rest. *)
Definition read_full (n : nat) (s : list Z) : option (list Z) * list Z :=
  if (n <=? length s)%nat then (Some (firstn n s), skipn n s) else (None, []).

(** Cutting a byte string into k words of n bytes. *)
Fixpoint chunks (n k : nat) (bs : list Z) : list (list Z) :=
  match k with O => [] | S k' => firstn n bs :: chunks n k' (skipn n bs) end.

(** Go: binary.Read(rd, order, xs) for a slice of k signed n-byte integers.  When the read fails the
    error is returned and the slice is left as it was (encoding/binary decodes into the argument
    only after ReadFull has succeeded). *)
Definition read_ints (o : order) (n k : nat) (old : list Z) (s : list Z) : list Z * list Z :=
  match read_full (n * k) s with
  | (Some bs, rest) => (map (get_int o) (chunks n k bs), rest)
  | (None, rest) => (old, rest)
  end.

(** Go: binary.Write(wr, order, xs) for a slice of signed n-byte integers: the bytes appended. *)
Definition write_ints (o : order) (n : nat) (xs : list Z) : list Z := flat_map (put_int o n) xs.
