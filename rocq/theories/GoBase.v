(** * GoBase: Go vocabulary shared by the models (no proofs in this file).

    Go strings and []byte are [list ascii]; Go panics, error returns and normal
    returns are the three constructors of [res].                               *)
From Coq Require Export List Arith ZArith Ascii String Bool Lia.
Export ListNotations.
Local Open Scope nat_scope.
Local Open Scope list_scope.

(** A Go call: normal return, returned error, or run-time panic. *)
Inductive res (A : Type) : Type :=
| Ok (a : A)
| Err
| Panic.
Arguments Ok {A} a.
Arguments Err {A}.
Arguments Panic {A}.

Definition bindr {A B} (r : res A) (f : A -> res B) : res B :=
  match r with Ok a => f a | Err => Err | Panic => Panic end.

Notation bytes := (list ascii).

(** String literals, for writing constants and examples. *)
Definition lit (s : string) : bytes := list_ascii_of_string s.

Definition sp : ascii := " "%char.
Definition tab : ascii := ascii_of_nat 9.
Definition nl : ascii := ascii_of_nat 10.

Definition beq (x y : bytes) : bool :=
  if list_eq_dec ascii_dec x y then true else false.

(** Go stdlib strings.Index(s, string(c)) for a one-byte needle (parse/config.go:470,493). *)
Fixpoint index_byte (c : ascii) (s : bytes) : option nat :=
  match s with
  | [] => None
  | a :: s' => if Ascii.eqb a c then Some 0 else option_map S (index_byte c s')
  end.

(** Go stdlib strings.Split(s, string(c)) / bytes.Split for a one-byte separator: always at
    least one element (version.go:17, config.go:154,294, catalog.go split). *)
Fixpoint split_byte (c : ascii) (s : bytes) : list bytes :=
  match s with
  | [] => [[]]
  | a :: s' =>
      if Ascii.eqb a c then [] :: split_byte c s'
      else match split_byte c s' with
           | [] => [[a]]            (* unreachable: split_byte is never [] *)
           | w :: ws => (a :: w) :: ws
           end
  end.

(** Go stdlib strings.TrimLeft(s, string(c)) (config.go:459). *)
Fixpoint trim_left (c : ascii) (s : bytes) : bytes :=
  match s with
  | [] => []
  | a :: s' => if Ascii.eqb a c then trim_left c s' else s
  end.

(** Go stdlib strings.TrimRight. *)
Definition trim_right (c : ascii) (s : bytes) : bytes := rev (trim_left c (rev s)).

(** Go stdlib strings.Trim(s, string(c)) (config.go:137,156,479,502,506). *)
Definition trim (c : ascii) (s : bytes) : bytes := trim_right c (trim_left c s).

(** Go stdlib strings.Join(ss, sep) (config.go:390,396). *)
Fixpoint join (sep : bytes) (ss : list bytes) : bytes :=
  match ss with
  | [] => []
  | [s] => s
  | s :: ss' => s ++ sep ++ join sep ss'
  end.

(** ** Go stdlib strconv.Atoi on a 64-bit platform: an optional sign, then one or more decimal
    digits, value in [-2^63, 2^63). *)
Definition digit_val (a : ascii) : option Z :=
  let n := nat_of_ascii a in
  if (48 <=? n) && (n <=? 57) then Some (Z.of_nat (n - 48)) else None.

Fixpoint digits_val (acc : Z) (s : bytes) : option Z :=
  match s with
  | [] => Some acc
  | a :: s' => match digit_val a with
               | Some d => digits_val (acc * 10 + d)%Z s'
               | None => None
               end
  end.

Definition int64_min : Z := (- 2 ^ 63)%Z.
Definition int64_max : Z := (2 ^ 63 - 1)%Z.
Definition in_int64 (z : Z) : bool := (int64_min <=? z)%Z && (z <=? int64_max)%Z.

Definition check_range (z : Z) : option Z := if in_int64 z then Some z else None.

Definition atoi (s : bytes) : option Z :=
  match s with
  | [] => None
  | a :: s' =>
      if Ascii.eqb a "-"%char then
        match s' with
        | [] => None
        | _ => match digits_val 0 s' with Some v => check_range (- v)%Z | None => None end
        end
      else if Ascii.eqb a "+"%char then
        match s' with
        | [] => None
        | _ => match digits_val 0 s' with Some v => check_range v | None => None end
        end
      else match digits_val 0 s with Some v => check_range v | None => None end
  end.

(** Go stdlib strconv.ParseBool (config.go:144,207). *)
Definition parse_bool (s : bytes) : option bool :=
  if existsb (beq s) (map lit ["1"; "t"; "T"; "TRUE"; "true"; "True"]%string) then Some true
  else if existsb (beq s) (map lit ["0"; "f"; "F"; "FALSE"; "false"; "False"]%string) then Some false
  else None.

(** Go slice write xs[i] = v; [None] is index-out-of-range. *)
Fixpoint upd {A} (l : list A) (i : nat) (v : A) : option (list A) :=
  match l, i with
  | [], _ => None
  | _ :: l', O => Some (v :: l')
  | a :: l', S i' => option_map (cons a) (upd l' i' v)
  end.

(** Decimal rendering, strconv.Itoa / fmt "%d". *)
Definition digit_char (d : Z) : ascii := ascii_of_nat (48 + Z.to_nat d).

Fixpoint itoa_pos (fuel : nat) (z : Z) (acc : bytes) : bytes :=
  match fuel with
  | O => acc
  | S f => let acc' := digit_char (z mod 10)%Z :: acc in
           if (z <? 10)%Z then acc' else itoa_pos f (z / 10)%Z acc'
  end.

(** Fuel: the number of bits of z, plus one, is at least its number of decimal digits. *)
Definition itoa_nonneg (z : Z) : bytes := itoa_pos (S (Z.to_nat (Z.log2 z))) z [].

Definition itoa (z : Z) : bytes :=
  if (z <? 0)%Z then "-"%char :: itoa_nonneg (- z)%Z else itoa_nonneg z.
