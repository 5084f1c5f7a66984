(** What the README says about levels, independently of the model.
    README.md: "Logger level are: All<Trace<Debug<Info<Warn<Error<Critical<Off",
    "configured in the configuration file without case discrimination". *)
From Verif Require Import GoStr.
Local Open Scope Z_scope.

(** The eight levels with their position in the order above and their documented names. *)
Inductive named_level : Z -> str -> Prop :=
| nl_all : named_level 1 ($"ALL")
| nl_trace : named_level 2 ($"TRACE")
| nl_debug : named_level 3 ($"DEBUG")
| nl_info : named_level 4 ($"INFO")
| nl_warn : named_level 5 ($"WARN")
| nl_error : named_level 6 ($"ERROR")
| nl_critical : named_level 7 ($"CRITICAL")
| nl_off : named_level 8 ($"OFF").

(** Two ASCII letters are the same up to case. *)
Definition same_letter (a b : ascii) : Prop :=
  a = b \/
  (exists k, (k < 26)%N /\
     ((N_of_ascii a = 65 + k /\ N_of_ascii b = 97 + k) \/
      (N_of_ascii a = 97 + k /\ N_of_ascii b = 65 + k))%N).
(** Equal up to ASCII letter case. *)
Definition same_fold (s t : str) : Prop := Forall2 same_letter s t.
(** All bytes below 128. *)
Definition ascii_only (s : str) : Prop := Forall (fun c => (N_of_ascii c < 128)%N) s.

(** What the Unicode case tables say about characters above ASCII whose other case is an ASCII letter: upper case I for
    the dotless i (U+0131) and S for the long s (U+017F), lower case i for the dotted I (U+0130) and k for the Kelvin sign
    (U+212A), and no others. *)
Definition upper_table (up : N -> N) : Prop :=
  up 305%N = 73%N /\ forall r, (128 <= r)%N -> (up r < 128)%N -> (r = 305 /\ up r = 73 \/ r = 383 /\ up r = 83)%N.
Definition lower_table (low : N -> N) : Prop :=
  forall r, (128 <= r)%N -> (low r < 128)%N -> (low r = 105 \/ low r = 107)%N.
(** [s] spells [n] up to letter case, where a dotless i (bytes C4 B1) also stands for I. *)
Inductive spells : str -> str -> Prop :=
| sp_end : spells [] []
| sp_letter a b s n : same_letter a b -> spells s n -> spells (a :: s) (b :: n)
| sp_dotless s n : spells s n -> spells (ascii_of_N 196 :: ascii_of_N 177 :: s) ("I"%char :: n).
