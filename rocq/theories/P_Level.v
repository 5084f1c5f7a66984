(** Property C01. *)
From Verif Require Import GoStr Utf8 LevelModel LevelSpec LevelProofs CaseProofs.
Local Open Scope Z_scope.

(** LevelFrom(s) = l exactly when the upper-cased s is the documented name of l, or s names no
    level and l is Uninitialized (0) -- in whatever order [ord] the runtime visits the table and
    whatever the non-ASCII case table [up] is. *)
Theorem C01_LevelFrom_exact : forall up ord s l,
  Permutation ord levelStrings ->
  (levelFrom_loop up ord s = l <->
   named_level l (to_upper up s) \/ (l = 0 /\ forall k, ~ named_level k (to_upper up s))).
Proof. exact levelFrom_order. Qed.
Print Assumptions C01_LevelFrom_exact.

(** For ASCII input: exactly case-insensitive comparison with the documented names. *)
Theorem C01_LevelFrom_case_insensitive : forall up ord s l,
  Permutation ord levelStrings -> ascii_only s ->
  (levelFrom_loop up ord s = l <->
   (exists n, named_level l n /\ same_fold s n) \/
   (l = 0 /\ forall k n, named_level k n -> ~ same_fold s n)).
Proof. exact levelFrom_ascii. Qed.
Print Assumptions C01_LevelFrom_case_insensitive.

(** For any input, given what the Unicode case tables say about ASCII letters: the same, and the dotless i counts as an i.
    No other character above ASCII has a part in the name of a level. *)
Theorem C01_LevelFrom_any_text : forall up ord s l,
  Permutation ord levelStrings -> upper_table up ->
  (levelFrom_loop up ord s = l <->
   (exists n, named_level l n /\ spells s n) \/
   (l = 0 /\ forall k n, named_level k n -> ~ spells s n)).
Proof. exact levelFrom_spells. Qed.
Print Assumptions C01_LevelFrom_any_text.

(** Round trip, for every named level and every iteration order. *)
Theorem C01_LevelFrom_String : forall up ord l n,
  Permutation ord levelStrings -> named_level l n ->
  level_String l = n /\ levelFrom_loop up ord (level_String l) = l.
Proof.
  intros up ord l n Hp Hn. rewrite (level_String_named l n Hn).
  split; [reflexivity|now apply levelFrom_string].
Qed.
Print Assumptions C01_LevelFrom_String.

(** The hypotheses are met by a reversed table and a mixed-case name. *)
Example C01_example : Permutation (rev levelStrings) levelStrings /\ ascii_only ($"eRror") /\
  levelFrom_loop (fun r => r) (rev levelStrings) ($"eRror") = 6 /\
  levelFrom_loop (fun r => r) (rev levelStrings) ($"xx") = 0.
Proof.
  split; [apply Permutation_sym, Permutation_rev|]. split; [repeat constructor|].
  split; reflexivity.
Qed.
(** A non-ASCII spelling can also name a level: with U+0131 (dotless i, bytes C4 B1) upper-cased to
    I, as Go's table does, the string "(dotless i)nfo" parses as Info. *)
Example C01_dotless_i :
  levelFrom_loop (fun r => if (r =? 305)%N then 73%N else r) levelStrings
    (byte_of 196 :: byte_of 177 :: $"nfo") = 4.
Proof. reflexivity. Qed.
Example C01_tables : upper_table (fun r => if (r =? 305)%N then 73%N else if (r =? 383)%N then 83%N else r) /\
  spells (byte_of 196 :: byte_of 177 :: $"nfo") ($"INFO").
Proof.
  split.
  - split; [reflexivity|]. intros r Hr. destruct (N.eqb_spec r 305) as [->|]; [auto|]. destruct (N.eqb_spec r 383) as [->|]; [auto|]. lia.
  - apply sp_dotless. apply sp_letter; [right; exists 13%N; split; [reflexivity|right; split; reflexivity]|].
    apply sp_letter; [right; exists 5%N; split; [reflexivity|right; split; reflexivity]|].
    apply sp_letter; [right; exists 14%N; split; [reflexivity|right; split; reflexivity]|constructor].
Qed.
