(** What a layout is, independently of the regular expression and of the parser.
    README.md (layout): literal text mixed with verbs "%{name}" and "%{name:format}". *)
From Verif Require Import GoStr.

Inductive layout_item :=
| Lit (s : str)
| Verb (name : str) (fmt : option str).

Definition print_verb (name : str) (fmt : option str) : str :=
  match fmt with
  | None => $"%{" ++ name ++ $"}"
  | Some x => $"%{" ++ name ++ $":" ++ x ++ $"}"
  end.
Definition print_item (i : layout_item) : str :=
  match i with Lit s => s | Verb n f => print_verb n f end.
Definition print_items (l : list layout_item) : str := concat (map print_item l).

(** Letters and digits. *)
Definition alnum (c : ascii) : Prop :=
  let n := N_of_ascii c in
  (97 <= n <= 122 \/ 65 <= n <= 90 \/ 48 <= n <= 57)%N.
Definition name_ok (n : str) : Prop := n <> [] /\ Forall alnum n.

Definition nl : ascii := "010"%char.
Definition bslash : ascii := "092"%char.

(** A format text: non-empty, the last byte not a backslash, no newline before the last byte, and
    it extends to the first closing brace that can end it: every closing brace inside it (other
    than as first byte) is preceded by a backslash. *)
Definition fmt_ok (x : str) : Prop :=
  exists y c, x = y ++ [c] /\ c <> bslash /\ ~ In nl y /\
  (forall y' d z, x = y' ++ d :: "}"%char :: z -> d = bslash).
Definition verb_ok (n : str) (f : option str) : Prop :=
  name_ok n /\ match f with None => True | Some x => fmt_ok x end.

(** [s] begins with a verb. *)
Definition starts_verb (s : str) : Prop :=
  exists n f r, verb_ok n f /\ s = print_verb n f ++ r.

Definition lit (s : str) : list layout_item := match s with [] => [] | _ => [Lit s] end.

(** Cutting a layout at its verbs, from left to right: everything between verbs is literal text. *)
Inductive splits : str -> list layout_item -> Prop :=
| sp_lit s : (forall a b, s = a ++ b -> ~ starts_verb b) -> splits s (lit s)
| sp_verb pre n f rest items :
    verb_ok n f ->
    (forall a b, pre = a ++ b -> b <> [] -> ~ starts_verb (b ++ print_verb n f ++ rest)) ->
    splits rest items ->
    splits (pre ++ print_verb n f ++ rest) (lit pre ++ Verb n f :: items).

(** The simple layouts of C22: literals without "%{", formats without closing brace or newline and
    not ending in a backslash, literals non-empty and not adjacent. *)
Definition plain_fmt (x : str) : Prop :=
  exists y c, x = y ++ [c] /\ c <> bslash /\ ~ In nl x /\ ~ In "}"%char x.
Definition plain_item (i : layout_item) : Prop :=
  match i with
  | Lit s => s <> [] /\ forall a b, s <> a ++ "%"%char :: "{"%char :: b
  | Verb n None => name_ok n
  | Verb n (Some x) => name_ok n /\ plain_fmt x
  end.
Fixpoint no_adjacent (l : list layout_item) : Prop :=
  match l with
  | Lit _ :: ((Lit _ :: _) as l') => False
  | _ :: l' => no_adjacent l'
  | [] => True
  end.
Definition is_verb (i : layout_item) : Prop := match i with Verb _ _ => True | Lit _ => False end.

(** A verb in the loose sense of C23: "%{name}" or "%{name:fmt}" with any admissible format, not
    necessarily the shortest. *)
Definition loose_fmt (x : str) : Prop := exists y c, x = y ++ [c] /\ c <> bslash /\ ~ In nl y.
Definition contains_verb (s : str) : Prop :=
  exists a n f b, s = a ++ print_verb n f ++ b /\ name_ok n /\
                  match f with None => True | Some x => loose_fmt x end.
