(** Model of the buffer of a memory output (internal/output_memory.go:13-16 [memoryOutput]): a
    bytes.Buffer without a lock, written by every log call that reaches the output
    (internal/output_base.go:40-55 [Send]). bytes.Buffer is library code; its Write is taken apart at
    its accesses to the slice [b.buf], so that calls of several goroutines can overlap. *)
From Verif Require Import GoStr.
Local Open Scope nat_scope.

(** The slice: the array it refers to and its length; nil at first. Arrays stay once allocated; an
    array's length is the slice's capacity. Nothing is ever read out of the buffer but by String
    (internal/output_memory.go:18-20 [String]), so the read offset stays 0. *)
Record mem := mkMem { m_arrays : list str; m_slice : option (nat * nat) }.
Definition mem_new : mem := mkMem [] None.
Definition array (s : mem) (a : nat) : str := nth a (m_arrays s) [].
Definition mlen (s : mem) : nat := match m_slice s with Some (_, l) => l | None => 0 end.
Definition mcap (s : mem) : nat := match m_slice s with Some (a, _) => length (array s a) | None => 0 end.
(** internal/output_memory.go:18-20 [String]. *)
Definition String (s : mem) : str := match m_slice s with Some (a, l) => firstn l (array s a) | None => [] end.

(** Where a call of Write([p]) is. *)
Inductive pc :=
| WLook (p : str)                (* tryGrowByReslice: read length and capacity *)
| WReslice (p : str) (l : nat)   (* b.buf = b.buf[:l+n] *)
| WGrow (p : str)                (* grow: read them again, allocate a larger array and copy the old contents *)
| WStore (p : str) (a m : nat)   (* b.buf = the new array up to m+n *)
| WCopy (p : str) (m : nat).     (* copy(b.buf[m:], p) *)
Inductive out := Goes (c : pc) | Returns | Panics.

Definition zeros (n : nat) : str := repeat "000"%char n.
(** copy: [p] over [x] from [m] on. *)
Definition overlay (x : str) (m : nat) (p : str) : str := firstn m x ++ p ++ skipn (m + length p) x.
Definition aput (l : list str) (a : nat) (x : str) : list str := firstn a l ++ x :: skipn (S a) l.

(** One step. [capf c n]: the capacity of the array allocated for [n] more bytes when the old one has
    [c] (makeSlice(2*c+n), or 64 for a first small record). A slice expression out of range panics. *)
Definition mstep (capf : nat -> nat -> nat) (s : mem) (c : pc) : mem * out :=
  match c with
  | WLook p => if length p <=? mcap s - mlen s then (s, Goes (WReslice p (mlen s))) else (s, Goes (WGrow p))
  | WReslice p l =>
    if l + length p <=? mcap s then
      (match m_slice s with Some (a, _) => mkMem (m_arrays s) (Some (a, l + length p)) | None => s end, Goes (WCopy p l))
    else (s, Panics)
  | WGrow p =>
    if length p <=? mcap s - mlen s then (s, Goes (WReslice p (mlen s)))
    else (mkMem (m_arrays s ++ [String s ++ zeros (capf (mcap s) (length p) - mlen s)]) (m_slice s),
          Goes (WStore p (length (m_arrays s)) (mlen s)))
  | WStore p a m => (mkMem (m_arrays s) (Some (a, m + length p)), Goes (WCopy p m))
  | WCopy p m =>
    if m <=? mlen s then
      (match m_slice s with
       | Some (a, l) => mkMem (aput (m_arrays s) a (overlay (array s a) m (firstn (l - m) p))) (m_slice s)
       | None => s
       end, Returns)
    else (s, Panics)
  end.

(** A call that nobody else's overlaps. *)
Inductive alone (capf : nat -> nat -> nat) : mem -> pc -> mem -> out -> Prop :=
| al_end s c s' o : mstep capf s c = (s', o) -> (forall c', o <> Goes c') -> alone capf s c s' o
| al_step s c s1 c1 s' o : mstep capf s c = (s1, Goes c1) -> alone capf s1 c1 s' o -> alone capf s c s' o.
(** Writes one after the other, none of which panics. *)
Inductive in_turn (capf : nat -> nat -> nat) : mem -> list str -> mem -> Prop :=
| it_nil s : in_turn capf s [] s
| it_write s p s1 ps s' : alone capf s (WLook p) s1 Returns -> in_turn capf s1 ps s' -> in_turn capf s (p :: ps) s'.

(** Any number of goroutines, each with the records it still has to write. [g_panicked] stops the
    process. *)
Record gor := mkGor { g_pc : option pc; g_todo : list str }.
Record many := mkMany { y_mem : mem; y_gors : list gor; y_panicked : bool }.
Definition gput (l : list gor) (i : nat) (g : gor) : list gor := firstn i l ++ g :: skipn (S i) l.
Definition starts (texts : list (list str)) (s : mem) : many := mkMany s (map (mkGor None) texts) false.
(** Goroutine [i] makes one step; calling Write is a step of its own. *)
Definition ystep (capf : nat -> nat -> nat) (y : many) (i : nat) : option many :=
  if y_panicked y then None else
  match nth_error (y_gors y) i with
  | Some (mkGor (Some c) todo) =>
    match mstep capf (y_mem y) c with
    | (s, Goes c') => Some (mkMany s (gput (y_gors y) i (mkGor (Some c') todo)) false)
    | (s, Returns) => Some (mkMany s (gput (y_gors y) i (mkGor None todo)) false)
    | (s, Panics) => Some (mkMany s (y_gors y) true)
    end
  | Some (mkGor None (p :: todo)) => Some (mkMany (y_mem y) (gput (y_gors y) i (mkGor (Some (WLook p)) todo)) false)
  | _ => None
  end.
Fixpoint yrun (capf : nat -> nat -> nat) (y : many) (sched : list nat) : option many :=
  match sched with
  | [] => Some y
  | i :: rest => match ystep capf y i with Some y' => yrun capf y' rest | None => None end
  end.
(** Go's capacities. *)
Definition go_cap (c n : nat) : nat := if (c =? 0) && (n <=? 64) then 64 else 2 * c + n.
(** All calls have returned. *)
Definition finished (y : many) : bool :=
  negb (y_panicked y) && forallb (fun g => match g with mkGor None [] => true | _ => false end) (y_gors y).
