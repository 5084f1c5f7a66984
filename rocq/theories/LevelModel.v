(** Model of api/logger_level.go. *)
From Verif Require Import GoStr Utf8.
Local Open Scope Z_scope.

(** api/logger_level.go:6 [type Level int]; lines 9-19: iota constants. *)
Definition level := Z.
Definition Uninitialized : level := 0.
Definition All : level := 1.
Definition Trace : level := 2.
Definition Debug : level := 3.
Definition Info : level := 4.
Definition Warn : level := 5.
Definition Error : level := 6.
Definition Critical : level := 7.
Definition Off : level := 8.

(** api/logger_level.go:21-30 [levelStrings]: a Go map, written as its entries. *)
Definition levelStrings : list (level * str) :=
  [ (All, $"ALL"); (Trace, $"TRACE"); (Debug, $"DEBUG"); (Info, $"INFO"); (Warn, $"WARN");
    (Error, $"ERROR"); (Critical, $"CRITICAL"); (Off, $"OFF") ].

(** api/logger_level.go:32-41 [lvlStrings]. *)
Definition lvlStrings : list (level * str) :=
  [ (All, $"ALL"); (Trace, $"TAC"); (Debug, $"DBG"); (Info, $"INF"); (Warn, $"WRN");
    (Error, $"ERR"); (Critical, $"CRI"); (Off, $"OFF") ].

(** Go map read [m[k]] with zero value "" for a missing key. *)
Fixpoint zlookup (k : level) (m : list (level * str)) : str :=
  match m with
  | [] => []
  | (k', v) :: m' => if k =? k' then v else zlookup k m'
  end.

(** api/logger_level.go:44-46 [Level.String]; 49-51 [Level.ShortStr]. *)
Definition level_String (l : level) : str := zlookup l levelStrings.
Definition level_ShortStr (l : level) : str := zlookup l lvlStrings.

(** api/logger_level.go:54-61 [LevelFrom]: the loop [for k, v := range levelStrings]; [ord] is the
    order in which the Go runtime happens to visit the map, [up] the non-ASCII case table of
    strings.ToUpper. *)
Fixpoint levelFrom_loop (up : rune -> rune) (ord : list (level * str)) (s : str) : level :=
  match ord with
  | [] => Uninitialized
  | (k, v) :: ord' => if str_eqb (to_upper up s) v then k else levelFrom_loop up ord' s
  end.
Definition LevelFrom (up : rune -> rune) (s : str) : level := levelFrom_loop up levelStrings s.
