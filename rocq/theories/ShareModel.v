(** Model of formatters that work on one event at the same time: a log call hands the same *api.Event
    to every output (internal/logger.go:196-198), and the workers of asynchronous outputs format it
    when they come to it. internal/format_parser.go:168-188 [Format] and
    internal/logger_callerinfo.go:25-56 [getCallerInfo] are taken apart at their accesses to what
    formatting can change. *)
From Verif Require Import GoStr LevelModel EventModel LayoutModel.
Local Open Scope Z_scope.

(** What formatting can change: evt.Ctx and the callerInfo objects. Of evt.Ctx only the callerInfo
    that a lookup of "__caller_info" finds matters ([sh_top]; [None]: what the context of the event as
    it was sent answers). *)
Record shared := mkShared { sh_top : option nat; sh_infos : list caller_info }.
(** The event as it was sent. *)
Definition share (e : event) : shared :=
  match ctx_Value (ev_ctx e) caller_key with
  | Ok (VCaller ci) => mkShared (Some 0%nat) [ci]
  | _ => mkShared None []
  end.

(** Programs over these. *)
Inductive fprog (A : Type) :=
| FRet (a : A)
| FPanic
| FLook (k : option nat -> fprog A)              (* evt.Ctx.Value(...) *)
| FPut (ci : caller_info) (k : nat -> fprog A)   (* evt.Ctx = context.WithValue(evt.Ctx, ..., &ci) *)
| FGet (i : nat) (k : caller_info -> fprog A)    (* read a field of callerInfo i *)
| FPkg (i : nat) (p : str) (k : fprog A)         (* i.pkg = p *)
| FFun (i : nat) (f : str) (k : fprog A).        (* i.fun = f *)
Arguments FRet {A}. Arguments FPanic {A}. Arguments FLook {A}. Arguments FPut {A}. Arguments FGet {A}.
Arguments FPkg {A}. Arguments FFun {A}.
Fixpoint fbind {A B} (p : fprog A) (f : A -> fprog B) : fprog B :=
  match p with
  | FRet a => f a
  | FPanic => FPanic
  | FLook k => FLook (fun t => fbind (k t) f)
  | FPut ci k => FPut ci (fun i => fbind (k i) f)
  | FGet i k => FGet i (fun ci => fbind (k ci) f)
  | FPkg i p k => FPkg i p (fbind k f)
  | FFun i x k => FFun i x (fbind k f)
  end.

Section Format.
(** [e] is the event as it was sent; [stk] the stack inside getCallerInfo. *)
Context (E : env) (stk : stack) (e : event).
(** internal/logger_callerinfo.go:25-56 [getCallerInfo]. *)
Definition f_info (needFun : bool) : fprog nat :=
  fbind (FLook (fun t =>
    match t with
    | Some i => FRet i
    | None =>
      match ctx_Value (ev_ctx e) caller_key with
      | Ok VNil => FPut (match runtime_Caller stk (ev_depth e + 1) with
                         | Some fr => mkCI (fr_file fr) (fr_line fr) [] [] (fr_pc fr)
                         | None => mkCI ($"???") 0 [] [] 0
                         end) FRet
      | _ => FPanic
      end
    end)) (fun i =>
  if needFun then
    FGet i (fun ci =>
      if str_eqb (ci_pkg ci) [] then
        FGet i (fun ci =>
          match e_funcForPC E (ci_pc ci) with
          | Some fs => let (p, f) := split_func fs in FPkg i p (FFun i f (FRet i))
          | None => FRet i
          end)
      else FRet i)
  else FRet i).
(** internal/format_parser.go:192-276, the format functions; shortfuncFormatFunc reads ci.fun twice. *)
Definition f_func (fn : ffunc) (p : part) : fprog value :=
  match fn with
  | pidFormatFunc => FRet (VInt (e_pid E))
  | programFormatFunc => FRet (VStr (e_program E))
  | moduleFormatFunc => FRet (VStr (ev_name e))
  | messageFormatFunc => FRet (VStr (ev_Message E e))
  | levelFormatFunc => FRet (VStr (level_String (ev_level e)))
  | lvlFormatFunc => FRet (VStr (level_ShortStr (ev_level e)))
  | lineFormatFunc => fbind (f_info false) (fun i => FGet i (fun ci => FRet (VInt (ci_line ci))))
  | longfileFormatFunc => fbind (f_info false) (fun i => FGet i (fun ci => FRet (VStr (ci_file ci))))
  | shortfileFormatFunc => fbind (f_info false) (fun i => FGet i (fun ci => FRet (VStr (path_Base (ci_file ci)))))
  | longpkgFormatFunc => fbind (f_info true) (fun i => FGet i (fun ci => FRet (VStr (ci_pkg ci))))
  | shortpkgFormatFunc => fbind (f_info true) (fun i => FGet i (fun ci => FRet (VStr (path_Base (ci_pkg ci)))))
  | longfuncFormatFunc => fbind (f_info true) (fun i => FGet i (fun ci => FRet (VStr (ci_fun ci))))
  | shortfuncFormatFunc =>
    fbind (f_info true) (fun i => FGet i (fun c1 => FGet i (fun c2 =>
      match last_index_byte "." (ci_fun c1) with
      | Some j => if (S j <=? length (ci_fun c2))%nat then FRet (VStr (skipn (S j) (ci_fun c2))) else FPanic
      | None => FRet (VStr (ci_fun c2))
      end)))
  | timeFormatFunc =>
    FRet (VStr (match p_layout p with
                | [] => e_timefmt E (ev_time e) defaultTimeLayout
                | l => e_timefmt E (ev_time e) l
                end))
  | extendFormatFunc =>
    FLook (fun t =>
      match (if str_eqb (p_name p) caller_key then t else None) with
      | Some i => FGet i (fun ci => FRet (VCaller ci))
      | None => match ctx_Value (ev_ctx e) (p_name p) with Ok v => FRet v | Panic => FPanic end
      end)
  end.
(** internal/format_parser.go:169-187 and 168-188 [Format]. *)
Definition f_part (p : part) : fprog str :=
  match p_type p, p_func p with
  | fmtVerbStatic, _ => FRet (p_fmtStr p)
  | _, None => FPanic
  | fmtVerbTime, Some fn => fbind (f_func fn p) (fun v => match v with VStr s => FRet s | _ => FPanic end)
  | _, Some fn =>
    match p_fmtStr p with
    | [] => fbind (f_func fn p) (fun v =>
              match v with
              | VStr s => FRet s
              | _ => fbind (f_func fn p) (fun v2 => FRet (e_sprintf E ($"%v") [v2]))
              end)
    | f => fbind (f_func fn p) (fun v => FRet (e_sprintf E f [v]))
    end
  end.
Fixpoint f_parts (ps : list part) : fprog str :=
  match ps with
  | [] => FRet []
  | p :: ps' => fbind (f_part p) (fun s => fbind (f_parts ps') (fun s' => FRet (s ++ s')))
  end.
End Format.

(** One access; whether it writes. *)
Fixpoint set_info (l : list caller_info) (i : nat) (g : caller_info -> caller_info) : list caller_info :=
  match l, i with
  | [], _ => []
  | c :: l', O => g c :: l'
  | c :: l', S i' => c :: set_info l' i' g
  end.
Definition fstep {A} (s : shared) (p : fprog A) : option (shared * bool * fprog A) :=
  match p with
  | FRet _ | FPanic => None
  | FLook k => Some (s, false, k (sh_top s))
  | FPut ci k => Some (mkShared (Some (length (sh_infos s))) (sh_infos s ++ [ci]), true, k (length (sh_infos s)))
  | FGet i k => match nth_error (sh_infos s) i with Some ci => Some (s, false, k ci) | None => None end
  | FPkg i p k =>
    Some (mkShared (sh_top s) (set_info (sh_infos s) i (fun c => mkCI (ci_file c) (ci_line c) p (ci_fun c) (ci_pc c))), true, k)
  | FFun i f k =>
    Some (mkShared (sh_top s) (set_info (sh_infos s) i (fun c => mkCI (ci_file c) (ci_line c) (ci_pkg c) f (ci_pc c))), true, k)
  end.
(** A formatter that nobody disturbs; [None]: it panics. *)
Inductive by_itself {A} : shared -> fprog A -> shared -> option A -> Prop :=
| bi_ret s a : by_itself s (FRet a) s (Some a)
| bi_panic s : by_itself s FPanic s None
| bi_step s p s1 w p1 s' r : fstep s p = Some (s1, w, p1) -> by_itself s1 p1 s' r -> by_itself s p s' r.
(** Any number of formatters, the accesses of which interleave. The trace has who made an access and whether it
    was a write. *)
Inductive together : shared -> list (fprog str) -> list (nat * bool) -> shared -> list (fprog str) -> Prop :=
| tg_nil s ps : together s ps [] s ps
| tg_step s ps tr s1 ps1 i p s2 w p2 : together s ps tr s1 ps1 -> nth_error ps1 i = Some p -> fstep s1 p = Some (s2, w, p2) ->
    together s ps (tr ++ [(i, w)]) s2 (firstn i ps1 ++ p2 :: skipn (S i) ps1).
