(** Byte strings and the few functions of Go's [strings] package that log4g uses,
    together with finite maps keyed by strings.

    Go strings are sequences of bytes; here they are [list ascii] ([ascii] is one byte). *)
From Coq Require Export String.
From Coq Require Export Ascii List ZArith NArith Lia Bool Permutation.
Export ListNotations.

Notation str := (list ascii).

(** Literals: [$"root"] is the byte string. *)
Notation "$ s" := (list_ascii_of_string s%string) (at level 1, s at level 0).

(** ** Equality of strings (Go [==]) *)
Fixpoint str_eqb (a b : str) : bool :=
  match a, b with
  | [], [] => true
  | x :: a', y :: b' => Ascii.eqb x y && str_eqb a' b'
  | _, _ => false
  end.

(** ** Byte classes *)
Definition code (c : ascii) : N := N_of_ascii c.
Definition is_digit (c : ascii) : bool := (48 <=? code c)%N && (code c <=? 57)%N.
Definition is_lower (c : ascii) : bool := (97 <=? code c)%N && (code c <=? 122)%N.
Definition is_upper (c : ascii) : bool := (65 <=? code c)%N && (code c <=? 90)%N.
Definition is_alnum (c : ascii) : bool := is_digit c || is_lower c || is_upper c.

(** ** strings.HasPrefix / strings.HasSuffix (Go standard library) *)
Definition has_prefix (s p : str) : bool :=
  (length p <=? length s)%nat && str_eqb (firstn (length p) s) p.
Definition has_suffix (s p : str) : bool :=
  (length p <=? length s)%nat && str_eqb (skipn (length s - length p) s) p.

(** ** strings.Index / strings.LastIndex for a one-byte needle.
    [None] stands for Go's -1. *)
Fixpoint index_byte (c : ascii) (s : str) : option nat :=
  match s with
  | [] => None
  | x :: s' => if Ascii.eqb x c then Some 0%nat
               else match index_byte c s' with Some i => Some (S i) | None => None end
  end.
Fixpoint last_index_byte (c : ascii) (s : str) : option nat :=
  match s with
  | [] => None
  | x :: s' => match last_index_byte c s' with
               | Some i => Some (S i)
               | None => if Ascii.eqb x c then Some 0%nat else None
               end
  end.

(** ** Finite maps keyed by strings (Go [map[string]T]); keys are unique by construction
    because [minsert] replaces in place. *)
Definition smap (A : Type) := list (str * A).
Fixpoint mlookup {A} (k : str) (m : smap A) : option A :=
  match m with
  | [] => None
  | (k', v) :: m' => if str_eqb k k' then Some v else mlookup k m'
  end.
Fixpoint minsert {A} (k : str) (v : A) (m : smap A) : smap A :=
  match m with
  | [] => [(k, v)]
  | (k', v') :: m' => if str_eqb k k' then (k, v) :: m' else (k', v') :: minsert k v m'
  end.

(** ** Lemmas *)
Lemma str_eqb_spec a b : reflect (a = b) (str_eqb a b).
Proof.
  revert b; induction a as [|x a IH]; intros [|y b]; cbn; try (constructor; congruence).
  destruct (Ascii.eqb_spec x y) as [->|Hn]; cbn.
  - destruct (IH b) as [->|Hn]; constructor; congruence.
  - constructor; congruence.
Qed.
Lemma str_eqb_refl a : str_eqb a a = true.
Proof. destruct (str_eqb_spec a a); congruence. Qed.
Lemma str_eqb_eq a b : str_eqb a b = true <-> a = b.
Proof. destruct (str_eqb_spec a b); split; congruence. Qed.
Lemma str_eqb_neq a b : str_eqb a b = false <-> a <> b.
Proof. destruct (str_eqb_spec a b); split; congruence. Qed.
Lemma str_eqb_sym a b : str_eqb a b = str_eqb b a.
Proof. destruct (str_eqb_spec a b), (str_eqb_spec b a); congruence. Qed.
Lemma str_dec (a b : str) : {a = b} + {a <> b}.
Proof. destruct (str_eqb_spec a b); [left|right]; assumption. Qed.

Lemma has_prefix_iff s p : has_prefix s p = true <-> exists t, s = p ++ t.
Proof.
  unfold has_prefix; rewrite andb_true_iff, Nat.leb_le, str_eqb_eq; split.
  - intros [_ H]; exists (skipn (length p) s); rewrite <- H at 1; symmetry; apply firstn_skipn.
  - intros [t ->]; rewrite app_length; split; [lia|].
    rewrite firstn_app, Nat.sub_diag; cbn; rewrite app_nil_r; apply firstn_all.
Qed.
Lemma has_suffix_iff s p : has_suffix s p = true <-> exists t, s = t ++ p.
Proof.
  unfold has_suffix; rewrite andb_true_iff, Nat.leb_le, str_eqb_eq; split.
  - intros [_ H]; exists (firstn (length s - length p) s); rewrite <- H at 2; symmetry; apply firstn_skipn.
  - intros [t ->]; rewrite app_length; split; [lia|].
    replace (length t + length p - length p)%nat with (length t) by lia.
    rewrite skipn_app, Nat.sub_diag, skipn_all; reflexivity.
Qed.

Lemma index_byte_some c s i :
  index_byte c s = Some i ->
  s = firstn i s ++ c :: skipn (S i) s /\ ~ In c (firstn i s) /\ (i < length s)%nat.
Proof.
  revert i; induction s as [|x s IH]; cbn; intros i H; [discriminate|].
  destruct (Ascii.eqb_spec x c) as [->|Hn].
  - injection H as <-; cbn; repeat split; [tauto | lia].
  - destruct (index_byte c s) as [j|]; [|discriminate]; injection H as <-.
    destruct (IH j eq_refl) as (H1 & H2 & H3); cbn; repeat split.
    + f_equal; exact H1.
    + intros [->|Hin]; [congruence|tauto].
    + lia.
Qed.
Lemma index_byte_none c s : index_byte c s = None <-> ~ In c s.
Proof.
  induction s as [|x s IH]; cbn; [tauto|].
  destruct (Ascii.eqb_spec x c) as [->|Hn]; [split; [discriminate|tauto]|].
  destruct (index_byte c s) as [j|].
  - split; [discriminate|]. intros Hc. exfalso. destruct IH as [_ IH]. 
    assert (Some j = None) by (apply IH; tauto); discriminate.
  - destruct IH as [IH _]; split; auto. intros _ [->|H]; [congruence|]. now apply IH.
Qed.
Lemma last_index_byte_none c s : last_index_byte c s = None <-> ~ In c s.
Proof.
  induction s as [|x s IH]; cbn; [tauto|].
  destruct (last_index_byte c s) as [j|].
  - split; [discriminate|]. intros Hc. destruct IH as [_ IH].
    assert (Some j = None) by (apply IH; tauto); discriminate.
  - destruct IH as [IH _]; specialize (IH eq_refl).
    destruct (Ascii.eqb_spec x c) as [->|Hn]; split; try discriminate; tauto.
Qed.
Lemma last_index_byte_some c s i :
  last_index_byte c s = Some i ->
  s = firstn i s ++ c :: skipn (S i) s /\ ~ In c (skipn (S i) s) /\ (i < length s)%nat.
Proof.
  revert i; induction s as [|x s IH]; intros i H; [discriminate|].
  cbn [last_index_byte] in H.
  destruct (last_index_byte c s) as [j|] eqn:E.
  - injection H as <-. destruct (IH j eq_refl) as (H1 & H2 & H3).
    cbn [firstn skipn app length]; repeat split; [f_equal; exact H1| exact H2 | lia].
  - destruct (Ascii.eqb_spec x c) as [->|Hn]; [|discriminate]. injection H as <-.
    cbn; repeat split; [|lia]. now apply last_index_byte_none.
Qed.

Lemma mlookup_minsert_eq {A} k (v : A) m : mlookup k (minsert k v m) = Some v.
Proof.
  induction m as [|[k' v'] m IH]; cbn; [now rewrite str_eqb_refl|].
  destruct (str_eqb k k') eqn:E; cbn; [now rewrite str_eqb_refl|now rewrite E].
Qed.
Lemma mlookup_minsert_ne {A} k k' (v : A) m : k <> k' -> mlookup k (minsert k' v m) = mlookup k m.
Proof.
  intros Hn; induction m as [|[k2 v2] m IH]; cbn.
  - now rewrite (proj2 (str_eqb_neq k k') Hn).
  - destruct (str_eqb_spec k' k2) as [->|H2]; cbn.
    + now rewrite (proj2 (str_eqb_neq k k2) Hn).
    + now rewrite IH.
Qed.
Lemma mlookup_minsert {A} k k' (v : A) m :
  mlookup k (minsert k' v m) = if str_eqb k k' then Some v else mlookup k m.
Proof.
  destruct (str_eqb_spec k k') as [->|H]; [apply mlookup_minsert_eq|now apply mlookup_minsert_ne].
Qed.
Lemma mlookup_in {A} k (v : A) m : mlookup k m = Some v -> In (k, v) m.
Proof.
  induction m as [|[k' v'] m IH]; cbn; [discriminate|].
  destruct (str_eqb_spec k k') as [->|H]; [intros [= ->]; auto|auto].
Qed.
Lemma mlookup_none {A} k (m : smap A) : mlookup k m = None <-> ~ In k (map fst m).
Proof.
  induction m as [|[k' v'] m IH]; cbn; [tauto|].
  destruct (str_eqb_spec k k') as [->|H]; [split; [discriminate|tauto]|].
  rewrite IH; split; [intros Hn [?|?]; [congruence|tauto]|tauto].
Qed.
Lemma mlookup_nodup {A} k (v : A) m : NoDup (map fst m) -> In (k, v) m -> mlookup k m = Some v.
Proof.
  induction m as [|[k' v'] m IH]; cbn; [tauto|].
  intros Hnd [Heq|Hin]; inversion_clear Hnd as [|? ? Hni Hnd'].
  - injection Heq as -> ->; now rewrite str_eqb_refl.
  - destruct (str_eqb_spec k k') as [->|H]; [|auto].
    exfalso; apply Hni; apply in_map_iff; exists (k', v); auto.
Qed.
Lemma minsert_keys {A} k (v : A) m :
  map fst (minsert k v m) = if mlookup k m then map fst m else map fst m ++ [k].
Proof.
  induction m as [|[k' v'] m IH]; cbn; [reflexivity|].
  destruct (str_eqb_spec k k') as [->|H]; cbn; [reflexivity|].
  rewrite IH; destruct (mlookup k m); reflexivity.
Qed.
Lemma minsert_nodup {A} k (v : A) m : NoDup (map fst m) -> NoDup (map fst (minsert k v m)).
Proof.
  intros Hnd; rewrite minsert_keys.
  destruct (mlookup k m) as [x|] eqn:E; [assumption|].
  apply mlookup_none in E.
  apply NoDup_rev in Hnd. rewrite <- (rev_involutive (map fst m ++ [k])).
  apply NoDup_rev; rewrite rev_app_distr; cbn; constructor; [|assumption].
  now rewrite <- in_rev.
Qed.
