(** Model of internal/format_parser.go and internal/format_text.go. *)
From Verif Require Import GoStr Utf8 LevelModel EventModel.
Local Open Scope Z_scope.

(** ** Regular expressions with leftmost-first (Perl-like) semantics, as package regexp documents:
    among the matches starting leftmost, the one a backtracking search would find first. The
    search works on runes (an invalid byte counts as the rune U+FFFD of width 1). *)
Inductive re :=
| RChr (p : rune -> bool)      (* one rune of a class *)
| RSeq (a b : re)
| RPlus (a : re)               (* a+  (greedy) *)
| RStarLazy (a : re)           (* a*? *)
| ROpt (a : re)                (* a?  (greedy) *)
| RGroup (k : nat) (a : re).   (* capturing group number k *)

(** A rune with the bytes it was decoded from. *)
Notation item := (rune * str)%type.
Fixpoint decode_from (fuel : nat) (s : str) : list item :=
  match fuel, s with
  | S fuel', _ :: _ =>
    let (r, w) := decode_rune s in (r, firstn w s) :: decode_from fuel' (skipn w s)
  | _, _ => []
  end.
Definition decode_all (s : str) : list item := decode_from (length s) s.

(** Matcher state: byte offset, remaining input, captures (group, (start, end)), newest first. *)
Record mstate := mkM { m_off : nat; m_rest : list item; m_caps : list (nat * (nat * nat)) }.
(** All ways to match, in the order a backtracking matcher tries them. The iteration count of the
    loops is bounded by the number of runes left; the loop bodies of [formatRe] consume one rune. *)
Fixpoint mre (r : re) (st : mstate) : list mstate :=
  match r with
  | RChr p =>
    match m_rest st with
    | (c, bs) :: rest => if p c then [mkM (m_off st + length bs) rest (m_caps st)] else []
    | [] => []
    end
  | RSeq a b => flat_map (mre b) (mre a st)
  | RPlus a =>
    (fix go (n : nat) (st : mstate) : list mstate :=
       match n with
       | O => []
       | S n' => flat_map (fun st' => go n' st' ++ [st']) (mre a st)
       end) (length (m_rest st)) st
  | RStarLazy a =>
    (fix go (n : nat) (st : mstate) : list mstate :=
       st :: match n with
             | O => []
             | S n' => flat_map (go n') (mre a st)
             end) (length (m_rest st)) st
  | ROpt a => mre a st ++ [st]
  | RGroup k a =>
    map (fun st' => mkM (m_off st') (m_rest st') ((k, (m_off st, m_off st')) :: m_caps st')) (mre a st)
  end.

Definition rune_is (c : ascii) (r : rune) : bool := (r =? code c)%N.
Definition newline : ascii := "010"%char.
Definition backslash : ascii := "092"%char.
Definition rune_alnum (r : rune) : bool :=
  ((97 <=? r) && (r <=? 122) || (65 <=? r) && (r <=? 90) || (48 <=? r) && (r <=? 57))%N.

(** internal/format_parser.go:58 [formatRe]:
    percent, brace, group 1 of one or more of a-z A-Z 0-9, then optionally a colon and group 2
    (lazy [.*?] followed by one rune that is not a backslash), then a closing brace. The dot does
    not match a newline, the negated class does (regexp.Compile uses Perl flags). *)
Definition formatRe : re :=
  RSeq (RChr (rune_is "%")) (RSeq (RChr (rune_is "{")) (RSeq
    (RGroup 1 (RPlus (RChr rune_alnum))) (RSeq
    (ROpt (RSeq (RChr (rune_is ":"))
       (RGroup 2 (RSeq (RStarLazy (RChr (fun r => negb (rune_is newline r))))
                       (RChr (fun r => negb (rune_is backslash r)))))))
    (RChr (rune_is "}"))))).

(** One match: m[0], m[1], group 1 (m[2], m[3]) and group 2 (m[4], m[5]; [None] is -1). *)
Record rmatch := mkRM { rm_start : nat; rm_end : nat; rm_g1 : nat * nat; rm_g2 : option (nat * nat) }.
Fixpoint cap (k : nat) (cs : list (nat * (nat * nat))) : option (nat * nat) :=
  match cs with
  | [] => None
  | (k', v) :: cs' => if Nat.eqb k k' then Some v else cap k cs'
  end.
Definition match_at (off : nat) (s : list item) : option (rmatch * list item) :=
  match mre formatRe (mkM off s []) with
  | st :: _ => Some (mkRM off (m_off st) (match cap 1 (m_caps st) with Some g => g | None => (0, 0)%nat end)
                         (cap 2 (m_caps st)), m_rest st)
  | [] => None
  end.
(** FindAllStringSubmatchIndex(layout, -1): successive non-overlapping leftmost matches. ([formatRe]
    never matches the empty string, so the library's special case for empty matches is not needed.)
    Every step consumes at least one rune; the fuel is the number of runes. *)
Fixpoint find_all (fuel : nat) (off : nat) (s : list item) : list rmatch :=
  match fuel with
  | O => []
  | S fuel' =>
    match match_at off s with
    | Some (m, rest) => m :: find_all fuel' (rm_end m) rest
    | None => match s with
              | [] => []
              | (_, bs) :: s' => find_all fuel' (off + length bs) s'
              end
    end
  end.
Definition FindAll (layout : str) : list rmatch :=
  let s := decode_all layout in find_all (length s) 0 s.

(** ** Parts *)
(** internal/format_parser.go:21-26 *)
Inductive verb_type := fmtVerbName | fmtVerbStatic | fmtVerbTime | fmtVerbExtend.
(** The entries of internal/format_parser.go:61-77 [formatFuncs], named after the Go functions. *)
Inductive ffunc :=
| pidFormatFunc | programFormatFunc | moduleFormatFunc | messageFormatFunc | levelFormatFunc
| lvlFormatFunc | lineFormatFunc | longfileFormatFunc | shortfileFormatFunc | longpkgFormatFunc
| shortpkgFormatFunc | longfuncFormatFunc | shortfuncFormatFunc | timeFormatFunc | extendFormatFunc.
Definition verbTime : str := $"time".
Definition verbExtend : str := $"_extend".
Definition formatFuncs : smap ffunc :=
  [ ($"pid", pidFormatFunc); ($"program", programFormatFunc); ($"module", moduleFormatFunc);
    ($"msg", messageFormatFunc); ($"level", levelFormatFunc); ($"lvl", lvlFormatFunc);
    ($"line", lineFormatFunc); ($"longfile", longfileFormatFunc); ($"shortfile", shortfileFormatFunc);
    ($"longpkg", longpkgFormatFunc); ($"shortpkg", shortpkgFormatFunc);
    ($"longfunc", longfuncFormatFunc); ($"shortfunc", shortfuncFormatFunc);
    (verbTime, timeFormatFunc); (verbExtend, extendFormatFunc) ].
(** internal/format_parser.go:79-87 [formatCallerFlags]; internal/logger_callerinfo.go:11-15:
    none 0, file 1, func 2. *)
Definition formatCallerFlags : smap Z :=
  [ ($"line", 1); ($"longfile", 1); ($"shortfile", 1);
    ($"longpkg", 2); ($"shortpkg", 2); ($"longfunc", 2); ($"shortfunc", 2) ].

(** internal/format_parser.go:44-50 [part]; [p_func] is [None] for static parts. *)
Record part := mkPart {
  p_type : verb_type; p_name : str; p_fmtStr : str; p_func : option ffunc; p_layout : str }.

Definition slice (s : str) (a b : nat) : str := firstn (b - a) (skipn a s).
Definition static_part (s : str) : part := mkPart fmtVerbStatic [] s None [].
(** internal/format_parser.go:137-154: the part made for one match. *)
Definition verb_part (name : str) (f : option str) : part :=
  let '(ty, fn) := match mlookup name formatFuncs with
                   | Some fn => (fmtVerbName, fn)
                   | None => (fmtVerbExtend, extendFormatFunc)
                   end in
  match f with
  | None => mkPart ty name [] (Some fn) []
  | Some x => if str_eqb name verbTime then mkPart fmtVerbTime name [] (Some fn) x
              else mkPart ty name ("%"%char :: x) (Some fn) []
  end.
(** internal/format_parser.go:130-163: the loop over the matches. *)
Fixpoint collect (layout : str) (prev : nat) (ms : list rmatch) : list part :=
  match ms with
  | [] => match skipn prev layout with
          | [] => []
          | e => [static_part e]
          end
  | m :: ms' =>
    (if (prev <? rm_start m)%nat then [static_part (slice layout prev (rm_start m))] else []) ++
    verb_part (slice layout (fst (rm_g1 m)) (snd (rm_g1 m)))
              (match rm_g2 m with Some (a, b) => Some (slice layout a b) | None => None end)
    :: collect layout (rm_end m) ms'
  end.
(** internal/format_parser.go:122-165 [Parser]; [None] is the error result. *)
Definition Parser (layout : str) : option (list part) :=
  match FindAll layout with
  | [] => None
  | ms => Some (collect layout 0 ms)
  end.

(** path.Base (and filepath.Base on Unix). *)
Fixpoint strip_slashes (r : str) : str :=   (* on the reversed string *)
  match r with
  | c :: r' => if Ascii.eqb c "/" then strip_slashes r' else r
  | [] => []
  end.
Definition path_Base (p : str) : str :=
  match p with
  | [] => $"."
  | _ =>
    let q := rev (strip_slashes (rev p)) in
    match (match last_index_byte "/" q with Some i => skipn (S i) q | None => q end) with
    | [] => $"/"
    | b => b
    end
  end.

Definition defaultTimeLayout : str := $"2006-01-02T15:04:05.000Z07:00".

(** internal/format_parser.go:192-276: the format functions. [stk] is the stack inside
    getCallerInfo at formatting time. The event is returned because getCallerInfo stores its
    result in it. *)
Definition run_ffunc (E : env) (stk : stack) (fn : ffunc) (p : part) (e : event) : res (value * event) :=
  match fn with
  | pidFormatFunc => Ok (VInt (e_pid E), e)
  | programFormatFunc => Ok (VStr (e_program E), e)
  | moduleFormatFunc => Ok (VStr (ev_name e), e)
  | messageFormatFunc => Ok (VStr (ev_Message E e), e)
  | levelFormatFunc => Ok (VStr (level_String (ev_level e)), e)
  | lvlFormatFunc => Ok (VStr (level_ShortStr (ev_level e)), e)
  | lineFormatFunc => bind (getCallerInfo E stk e false) (fun '(ci, e') => Ok (VInt (ci_line ci), e'))
  | longfileFormatFunc => bind (getCallerInfo E stk e false) (fun '(ci, e') => Ok (VStr (ci_file ci), e'))
  | shortfileFormatFunc =>
    bind (getCallerInfo E stk e false) (fun '(ci, e') => Ok (VStr (path_Base (ci_file ci)), e'))
  | longpkgFormatFunc => bind (getCallerInfo E stk e true) (fun '(ci, e') => Ok (VStr (ci_pkg ci), e'))
  | shortpkgFormatFunc =>
    bind (getCallerInfo E stk e true) (fun '(ci, e') => Ok (VStr (path_Base (ci_pkg ci)), e'))
  | longfuncFormatFunc => bind (getCallerInfo E stk e true) (fun '(ci, e') => Ok (VStr (ci_fun ci), e'))
  | shortfuncFormatFunc =>
    bind (getCallerInfo E stk e true) (fun '(ci, e') =>
      Ok (VStr (match last_index_byte "." (ci_fun ci) with
                | Some i => skipn (S i) (ci_fun ci) | None => ci_fun ci end), e'))
  | timeFormatFunc =>
    Ok (VStr (match p_layout p with
              | [] => e_timefmt E (ev_time e) defaultTimeLayout
              | l => e_timefmt E (ev_time e) l
              end), e)
  | extendFormatFunc => bind (ctx_Value (ev_ctx e) (p_name p)) (fun v => Ok (v, e))
  end.

(** internal/format_parser.go:169-187: one iteration of the loop in [Format]. *)
Definition format_part (E : env) (stk : stack) (p : part) (e : event) : res (str * event) :=
  match p_type p, p_func p with
  | fmtVerbStatic, _ => Ok (p_fmtStr p, e)
  | _, None => Panic   (* nil function; Parser builds no such part *)
  | fmtVerbTime, Some fn =>
    bind (run_ffunc E stk fn p e) (fun '(v, e') =>
      match v with VStr s => Ok (s, e') | _ => Panic end)
  | _, Some fn =>
    match p_fmtStr p with
    | [] =>
      bind (run_ffunc E stk fn p e) (fun '(v, e1) =>
        match v with
        | VStr s => Ok (s, e1)
        | _ => bind (run_ffunc E stk fn p e1) (fun '(v2, e2) => Ok (e_sprintf E ($"%v") [v2], e2))
        end)
    | f => bind (run_ffunc E stk fn p e) (fun '(v, e1) => Ok (e_sprintf E f [v], e1))
    end
  end.
(** internal/format_parser.go:168-188 [StringFormatter.Format] into a buffer. *)
Fixpoint format_parts (E : env) (stk : stack) (ps : list part) (e : event) : res (str * event) :=
  match ps with
  | [] => Ok ([], e)
  | p :: ps' =>
    bind (format_part E stk p e) (fun '(s, e1) =>
    bind (format_parts E stk ps' e1) (fun '(s', e2) => Ok (s ++ s', e2)))
  end.

(** ** Formatters: the text formatter, or one supplied by the user (any function of the event,
    which may panic, assumed not to modify it). *)
Inductive formatter :=
| FText (ps : list part)
| FUser (fmt : event -> res str) (flag : Z).
(** internal/format_text.go:33-37 [textFormatter.Format]. *)
Definition fmt_Format (E : env) (stk : stack) (f : formatter) (e : event) : res (str * event) :=
  match f with
  | FText ps => format_parts E stk ps e
  | FUser g _ => bind (g e) (fun s => Ok (s, e))
  end.
(** internal/format_text.go:40-48 [CallerInfoFlag]. *)
Definition parts_flag (ps : list part) : Z :=
  fold_left (fun ret p => match mlookup (p_name p) formatCallerFlags with
                          | Some r => if ret <? r then r else ret
                          | None => ret
                          end) ps 0.
Definition fmt_CallerInfoFlag (f : formatter) : Z :=
  match f with FText ps => parts_flag ps | FUser _ flag => flag end.
(** internal/format_text.go:19-30 [NewTextFormatter]: panics on a nil map, an error for a layout
    without verbs. *)
Definition NewTextFormatter (cfg : option (smap str)) : res (option formatter) :=
  match cfg with
  | None => Panic
  | Some m =>
    let layout := match mlookup ($"layout") m with Some l => l | None => [] end in
    Ok (match Parser layout with Some ps => Some (FText ps) | None => None end)
  end.
