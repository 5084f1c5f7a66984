(** Model of api/logger_api.go (fields, events), of the part of package context that log4g uses,
    and of internal/logger_callerinfo.go. *)
From Verif Require Import GoStr Utf8 LevelModel.
Local Open Scope Z_scope.

(** Result of a Go call that may panic. *)
Inductive res (A : Type) := Ok (a : A) | Panic.
Arguments Ok {A} a.
Arguments Panic {A}.
Definition bind {A B} (r : res A) (f : A -> res B) : res B :=
  match r with Ok a => f a | Panic => Panic end.

(** internal/logger_callerinfo.go:17-23 [callerInfo] *)
Record caller_info := mkCI { ci_file : str; ci_line : Z; ci_pkg : str; ci_fun : str; ci_pc : Z }.

(** Dynamic values (interface{}): log arguments, field values. [VCaller] is a *callerInfo; it is
    held by value -- the only pointer to it is the one in the event's context, so in-place
    completion of pkg/fun is modelled by replacing the binding. [VOther] stands for values of any
    other dynamic type. *)
Inductive value :=
| VNil
| VStr (s : str)
| VInt (z : Z)
| VCaller (ci : caller_info)
| VOther (tag : nat).

(** context.Context as seen through [Value] with string keys: the background context, a context
    supplied by the user (any behaviour), context.WithValue, and the nil interface. *)
Inductive ctx :=
| CtxNil
| CtxBackground
| CtxUser (f : str -> res value)
| CtxWith (c : ctx) (k : str) (v : value).
(** [ctx.Value(k)]; calling a method on the nil interface panics. *)
Fixpoint ctx_Value (c : ctx) (k : str) : res value :=
  match c with
  | CtxNil => Panic
  | CtxBackground => Ok VNil
  | CtxUser f => f k
  | CtxWith c' k' v => if str_eqb k k' then Ok v else ctx_Value c' k
  end.

(** api/logger_api.go:67-71 [Field] *)
Definition field := (str * value)%type.
(** internal/logger.go:38-46 [WithFields]: the context it builds. *)
Definition fields_ctx (fs : list field) : ctx :=
  fold_left (fun c f => CtxWith c (fst f) (snd f)) fs CtxBackground.

(** api/logger_api.go:109-117 [Event]. Times are opaque numbers. *)
Record event := mkEvent {
  ev_format : str;
  ev_args : list value;
  ev_name : str;
  ev_level : level;
  ev_time : Z;
  ev_depth : Z;
  ev_ctx : ctx
}.
Definition set_ctx (e : event) (c : ctx) : event :=
  mkEvent (ev_format e) (ev_args e) (ev_name e) (ev_level e) (ev_time e) (ev_depth e) c.

(** Library behaviour the code only passes through. *)
Record env := mkEnv {
  e_sprintf : str -> list value -> str;     (* fmt.Sprintf *)
  e_sprint : list value -> str;             (* fmt.Sprint *)
  e_timefmt : Z -> str -> str;              (* time.Time.Format *)
  e_pid : Z;                                (* os.Getpid *)
  e_program : str;                          (* filepath.Base(os.Args[0]) *)
  e_funcForPC : Z -> option str             (* runtime.FuncForPC(pc).Name() *)
}.

(** api/logger_api.go:119-130 [Event.Message]. *)
Definition ev_Message (E : env) (e : event) : str :=
  match ev_args e with
  | [] => ev_format e
  | args => match ev_format e with
            | [] => e_sprint E args
            | f => e_sprintf E f args
            end
  end.

(** A stack frame as runtime.Caller reports it; stacks are listed innermost frame first. The
    compiler-generated wrappers for promoted methods are not frames (runtime.Caller skips them). *)
Record frame := mkFrame { fr_pc : Z; fr_file : str; fr_line : Z }.
Definition stack := list frame.
(** runtime.Caller(k) called from the function on top of [stk]. *)
Definition runtime_Caller (stk : stack) (k : Z) : option frame :=
  if k <? 0 then None else nth_error stk (Z.to_nat k).

(** internal/logger_callerinfo.go:45-50: splitting a function name into package and function. *)
Definition split_func (fs : str) : str * str :=
  let i1 := match last_index_byte "/" fs with Some i => S i | None => 0%nat end in  (* i + 1 *)
  match index_byte "." (skipn i1 fs) with
  | Some (S j) => (firstn (i1 + S j) fs, skipn (i1 + S j + 1) fs)
  | _ => ($"???", $"???")
  end.

Definition caller_key : str := $"__caller_info".
(** internal/logger_callerinfo.go:25-56 [getCallerInfo]. [stk] is the stack inside getCallerInfo
    (its own frame first). Returns the info and the updated event. *)
Definition getCallerInfo (E : env) (stk : stack) (evt : event) (needFun : bool)
  : res (caller_info * event) :=
  bind (ctx_Value (ev_ctx evt) caller_key) (fun v =>
  let complete (ci : caller_info) (evt : event) (c : ctx) :=
    if needFun && str_eqb (ci_pkg ci) [] then
      match e_funcForPC E (ci_pc ci) with
      | Some fs => let (p, f) := split_func fs in
                   let ci' := mkCI (ci_file ci) (ci_line ci) p f (ci_pc ci) in
                   Ok (ci', set_ctx evt (CtxWith c caller_key (VCaller ci')))
      | None => Ok (ci, evt)
      end
    else Ok (ci, evt) in
  match v with
  | VCaller ci => complete ci evt (ev_ctx evt)
  | VNil =>
    let ci := match runtime_Caller stk (ev_depth evt + 1) with
              | Some fr => mkCI (fr_file fr) (fr_line fr) [] [] (fr_pc fr)
              | None => mkCI ($"???") 0 [] [] 0
              end in
    complete ci (set_ctx evt (CtxWith (ev_ctx evt) caller_key (VCaller ci))) (ev_ctx evt)
  | _ => Panic   (* v.( *callerInfo) on another dynamic type *)
  end).
