(** strconv.Atoi, strconv.ParseInt, strconv.ParseUint (Go 1.13 or later, 64-bit [int]) and decimal printing.
    Every numeric setting and every roll number of log4g goes through these functions, and their
    results on errors matter because the code ignores the error: a syntax error gives 0 but a range
    error gives the nearest bound, and the range error is raised as soon as the digits read so far
    overflow, before any later byte is looked at. *)
From Verif Require Import GoStr.
Local Open Scope Z_scope.

Inductive num_err := ErrSyntax | ErrRange.

Definition max_int64 : Z := 9223372036854775807.
Definition min_int64 : Z := -9223372036854775808.
Definition max_uint64 : Z := 18446744073709551615.

(** Two's-complement wrap-around of Go's int64 (and 64-bit int) arithmetic. *)
Definition wrap64 (z : Z) : Z := (z + 9223372036854775808) mod 18446744073709551616 - 9223372036854775808.

Definition zcode (c : ascii) : Z := Z.of_N (code c).
(** strconv's lower(c) = c | ('x' - 'X') *)
Definition lower_code (c : ascii) : Z := Z.lor (zcode c) 32.

(** Digit value as in ParseUint's switch: None for a byte that is neither digit nor letter. *)
Definition digit_val (c : ascii) : option Z :=
  if is_digit c then Some (zcode c - 48)
  else if (97 <=? lower_code c) && (lower_code c <=? 122) then Some (lower_code c - 97 + 10)
  else None.

(** The loop of ParseUint. [base0] is true when the caller passed base 0 (underscores allowed);
    the boolean in the result tells whether an underscore was seen. *)
Fixpoint parse_loop (base maxVal : Z) (base0 : bool) (n : Z) (us : bool) (s : str)
  : Z * option num_err * bool :=
  match s with
  | [] => (n, None, us)
  | c :: s' =>
    if Ascii.eqb c "_" && base0 then parse_loop base maxVal base0 n true s'
    else match digit_val c with
    | None => (0, Some ErrSyntax, us)
    | Some d =>
      if base <=? d then (0, Some ErrSyntax, us)
      else if max_uint64 / base + 1 <=? n then (maxVal, Some ErrRange, us)
      else
        let nb := n * base in
        let n1 := (nb + d) mod 18446744073709551616 in
        if (n1 <? nb) || (maxVal <? n1) then (maxVal, Some ErrRange, us)
        else parse_loop base maxVal base0 n1 us s'
    end
  end.

(** strconv.underscoreOK *)
Inductive us_saw := SawBegin | SawDigit | SawUnder | SawOther.
Fixpoint underscore_loop (hex : bool) (saw : us_saw) (s : str) : bool :=
  match s with
  | [] => match saw with SawUnder => false | _ => true end
  | c :: s' =>
    if is_digit c || (hex && (97 <=? lower_code c) && (lower_code c <=? 102))
    then underscore_loop hex SawDigit s'
    else if Ascii.eqb c "_"
    then match saw with SawDigit => underscore_loop hex SawUnder s' | _ => false end
    else match saw with SawUnder => false | _ => underscore_loop hex SawOther s' end
  end.
Definition underscoreOK (s : str) : bool :=
  let s := match s with
           | c :: s' => if Ascii.eqb c "-" || Ascii.eqb c "+" then s' else s
           | [] => s end in
  match s with
  | c0 :: c1 :: s' =>
    if Ascii.eqb c0 "0" && ((lower_code c1 =? 98) || (lower_code c1 =? 111) || (lower_code c1 =? 120))
    then underscore_loop (lower_code c1 =? 120) SawDigit s'
    else underscore_loop false SawBegin s
  | _ => underscore_loop false SawBegin s
  end.

(** strconv.ParseUint(s, base, bitSize) for base 0 or 10. *)
Definition ParseUint (s : str) (base bitSize : Z) : Z * option num_err :=
  match s with
  | [] => (0, Some ErrSyntax)
  | c0 :: s1 =>
    let bs := if bitSize =? 0 then 64 else bitSize in
    let maxVal := 2 ^ bs - 1 in
    let base0 := base =? 0 in
    let '(b, digits) :=
      if base0 then
        if Ascii.eqb c0 "0" then
          match s1 with
          | c1 :: ((_ :: _) as s2) =>
            if lower_code c1 =? 98 then (2, s2)
            else if lower_code c1 =? 111 then (8, s2)
            else if lower_code c1 =? 120 then (16, s2)
            else (8, s1)
          | _ => (8, s1)
          end
        else (10, s)
      else (base, s) in
    match parse_loop b maxVal base0 0 false digits with
    | (_, Some ErrSyntax, _) => (0, Some ErrSyntax)
    | (n, Some ErrRange, _) => (n, Some ErrRange)
    | (n, None, us) => if us && negb (underscoreOK s) then (0, Some ErrSyntax) else (n, None)
    end
  end.

(** strconv.ParseInt(s, base, bitSize) *)
Definition ParseInt (s : str) (base bitSize : Z) : Z * option num_err :=
  match s with
  | [] => (0, Some ErrSyntax)
  | c :: s' =>
    let '(neg, rest) :=
      if Ascii.eqb c "+" then (false, s')
      else if Ascii.eqb c "-" then (true, s') else (false, s) in
    match ParseUint rest base bitSize with
    | (_, Some ErrSyntax) => (0, Some ErrSyntax)
    | (un, _) =>
      let bs := if bitSize =? 0 then 64 else bitSize in
      let cutoff := 2 ^ (bs - 1) in
      if negb neg && (cutoff <=? un) then (cutoff - 1, Some ErrRange)
      else if neg && (cutoff <? un) then (- cutoff, Some ErrRange)
      else ((if neg then - un else un), None)
    end
  end.

(** strconv.Atoi: its fast path (fewer than 19 bytes) computes the same as the slow path
    [ParseInt(s, 10, 0)], which is used here for all lengths. *)
Definition Atoi (s : str) : Z * option num_err := ParseInt s 10 0.
(** [v, _ := strconv.Atoi(s)] *)
Definition atoi (s : str) : Z := fst (Atoi s).
Definition atoi_ok (s : str) : bool := match snd (Atoi s) with None => true | Some _ => false end.

(** fmt.Sprintf("%d", z) *)
Definition digit_char (d : Z) : ascii := ascii_of_N (Z.to_N (48 + d)).
Fixpoint dec_loop (fuel : nat) (n : Z) (acc : str) : str :=
  match fuel with
  | O => acc
  | S f => let acc' := digit_char (n mod 10) :: acc in
           if n / 10 =? 0 then acc' else dec_loop f (n / 10) acc'
  end.
(** The fuel is the number of binary digits, which is at least the number of decimal digits
    (lemma [dec_nonneg_value]). *)
Definition dec_nonneg (n : Z) : str := dec_loop (S (Z.to_nat (Z.log2 n))) n [].
Definition Itoa (z : Z) : str :=
  if z <? 0 then "-"%char :: dec_nonneg (- z) else dec_nonneg z.
