(** Base.v - bytes, outcomes and small list utilities used by the model. *)
From Coq Require Export Ascii String.
From Coq Require Export List Arith ZArith Lia Bool.
From Coq Require Import Permutation Sorted.
Export ListNotations.
#[global] Set Implicit Arguments.
Open Scope list_scope.

(** ** Byte strings.  std::string is modelled as a list of bytes. *)
Definition bytes := list ascii.
Definition B (s : string) : bytes := list_ascii_of_string s.
Arguments B s%string.

Definition byte_eqb (a b : ascii) : bool := Ascii.eqb a b.
Fixpoint bytes_eqb (a b : bytes) : bool :=
  match a, b with
  | [], [] => true
  | x :: a', y :: b' => byte_eqb x y && bytes_eqb a' b'
  | _, _ => false
  end.

Definition LF : ascii := "010"%char.
Definition CR : ascii := "013"%char.
Definition TAB : ascii := "009"%char.
Definition NUL : ascii := "000"%char.
Definition SP : ascii := " "%char.
Definition DQUOTE : ascii := """"%char.
Definition BSLASH : ascii := "\"%char.

(** Byte order: std::string comparison is by unsigned char, lexicographic.
    It fixes the iteration order of std::map<std::string, ...>. *)
Fixpoint bytes_ltb (a b : bytes) : bool :=
  match a, b with
  | _, [] => false
  | [], _ :: _ => true
  | x :: a', y :: b' =>
      if (N_of_ascii x <? N_of_ascii y)%N then true
      else if (N_of_ascii y <? N_of_ascii x)%N then false
      else bytes_ltb a' b'
  end.

(** Decimal rendering of a natural number (absl::StrCat / Substitute of ints). *)
Fixpoint dec_digits (fuel : nat) (n : N) (acc : bytes) : bytes :=
  match fuel with
  | O => acc
  | S f =>
      let d := ascii_of_N (48 + N.modulo n 10) in
      let q := N.div n 10 in
      if (q =? 0)%N then d :: acc else dec_digits f q (d :: acc)
  end.
Definition dec_of_N (n : N) : bytes := dec_digits (S (N.to_nat (N.log2 n))) n [].
Definition dec_of_nat (n : nat) : bytes := dec_of_N (N.of_nat n).

(** ** Outcomes.  Abnormal ends of the process are never ordinary values. *)
Inductive abort :=
| ACheck (what : string)   (* a CHECK / eigen_assert failed: process aborts *)
| AThrow (what : string)   (* an exception escapes: std::terminate *)
| AUB (what : string).     (* undefined behaviour *)

Inductive outcome (A : Type) :=
| Ret (a : A)
| Abort (e : abort).
Arguments Ret {A} a.
Arguments Abort {A} e.

Definition obind {A B} (x : outcome A) (f : A -> outcome B) : outcome B :=
  match x with Ret a => f a | Abort e => Abort e end.
Notation "'do!' x <- a ; b" := (obind a (fun x => b))
  (at level 200, x name, a at level 100, b at level 200, right associativity).
Notation "'do!' ' p <- a ; b" := (obind a (fun p => b))
  (at level 200, p strict pattern, a at level 100, b at level 200, right associativity).

(** CHECK(cond) << ... *)
Definition check (c : bool) (what : string) : outcome unit :=
  if c then Ret tt else Abort (ACheck what).

Fixpoint omap {A B} (f : A -> outcome B) (l : list A) : outcome (list B) :=
  match l with
  | [] => Ret []
  | x :: t => do! y <- f x; do! ys <- omap f t; Ret (y :: ys)
  end.

(** ** Lists as vectors. *)
Definition set_nth {A} (n : nat) (x : A) (l : list A) : list A :=
  if n <? length l then firstn n l ++ x :: skipn (S n) l else l.

(** std::swap(v[i], v[j]); both indices are in range at every call site (proved). *)
Definition swap_nth {A} (i j : nat) (l : list A) : list A :=
  match nth_error l i, nth_error l j with
  | Some x, Some y => set_nth j x (set_nth i y l)
  | _, _ => l
  end.

(** ** std::map / std::set with a comparator, as a list kept in comparator
    order.  [lt] must be a strict weak order on the keys used, which is the
    precondition of the C++ containers (see C31). *)
Section SortedMap.
  Context {K V : Type}.
  Variable lt : K -> K -> bool.

  (** std::map::find *)
  Fixpoint smap_find (k : K) (m : list (K * V)) : option V :=
    match m with
    | [] => None
    | (k', v) :: t =>
        if lt k' k then smap_find k t
        else if lt k k' then None else Some v
    end.

  (** std::map::emplace: keeps the present entry if the key is equivalent. *)
  Fixpoint smap_emplace (k : K) (v : V) (m : list (K * V)) : list (K * V) :=
    match m with
    | [] => [(k, v)]
    | (k', v') :: t =>
        if lt k' k then (k', v') :: smap_emplace k v t
        else if lt k k' then (k, v) :: m else m
    end.

  (** m[k] = v: overwrites the value, keeps the present key object. *)
  Fixpoint smap_assign (k : K) (v : V) (m : list (K * V)) : list (K * V) :=
    match m with
    | [] => [(k, v)]
    | (k', v') :: t =>
        if lt k' k then (k', v') :: smap_assign k v t
        else if lt k k' then (k, v) :: m else (k', v) :: t
    end.

  (** std::map::erase(find(k)) *)
  Fixpoint smap_erase (k : K) (m : list (K * V)) : list (K * V) :=
    match m with
    | [] => []
    | (k', v') :: t =>
        if lt k' k then (k', v') :: smap_erase k t
        else if lt k k' then m else t
    end.
End SortedMap.

(** std::set::insert *)
Definition sset_insert {K} (lt : K -> K -> bool) (k : K) (s : list K) : list K :=
  map fst (smap_emplace lt k tt (map (fun x => (x, tt)) s)).
(** std::set::find(k) != end() *)
Definition sset_mem {K} (lt : K -> K -> bool) (k : K) (s : list K) : bool :=
  match smap_find lt k (map (fun x => (x, tt)) s) with Some _ => true | None => false end.

(** std::sort.  What the standard library demands of a comparison and what it
    promises in return. *)
Section Sort.
  Context {A : Type}.
  Variable lt : A -> A -> bool.
  (** One of them: insertion sort, which is stable. *)
  Fixpoint sort_insert (x : A) (l : list A) : list A :=
    match l with
    | [] => [x]
    | y :: t => if lt x y then x :: l else y :: sort_insert x t
    end.
  Fixpoint isort_acc (l acc : list A) : list A :=
    match l with
    | [] => acc
    | x :: t => isort_acc t (sort_insert x acc)
    end.
  Definition sort (l : list A) : list A := isort_acc l [].

  (** What the standard library demands of a comparison used by std::sort,
      std::map and std::set ([alg.sorting]): a strict weak ordering of the
      values it is used on.  Without one (a NaN among doubles) the behaviour is
      undefined. *)
  Definition strict_weak (l : list A) : bool :=
    forallb (fun x => negb (lt x x) &&
      forallb (fun y => forallb (fun z =>
        implb (lt x y && lt y z) (lt x z) && implb (lt x z) (lt x y || lt y z)) l) l) l.
End Sort.

(** An implementation of std::sort: a permutation without a descent, which
    leaves the order of equivalent elements open ([sort] above keeps it).  On
    anything but a strict weak ordering it may do anything. *)
Record sorter := Sorter {
  srun : forall T : Type, (T -> T -> bool) -> list T -> list T;
  srun_ok : forall T (lt : T -> T -> bool) l, strict_weak lt l = true ->
    Permutation (srun lt l) l /\ StronglySorted (fun a b => lt b a = false) (srun lt l)
}.
Definition std_sort (s : sorter) {T} (lt : T -> T -> bool) (l : list T) : outcome (list T) :=
  if strict_weak lt l then Ret (srun s lt l) else Abort (AUB "std::sort without a strict weak ordering").

(** Splitting at a separator byte: absl::StrSplit(s, sep) with a one byte
    separator.  n separators give n+1 pieces; the empty string gives [""]. *)
Fixpoint split_on (sep : ascii) (s : bytes) : list bytes :=
  match s with
  | [] => [[]]
  | c :: t =>
      if byte_eqb c sep then [] :: split_on sep t
      else match split_on sep t with
           | [] => [[c]]
           | h :: r => (c :: h) :: r
           end
  end.

(** absl::StrJoin *)
Fixpoint join (sep : bytes) (l : list bytes) : bytes :=
  match l with
  | [] => []
  | [x] => x
  | x :: t => x ++ sep ++ join sep t
  end.
