(** Memory contents, and what the C standard says about the string functions, on lists of
    bytes. *)
From Verif Require Import Base.

(** Byte-addressed memory; [None]: not part of any object. *)
Definition mem := Z -> option Z.

(** The bytes [l] are stored from [p] on. *)
Definition bytes (m : mem) (p : Z) (l : list Z) : Prop :=
  forall i b, nth_error l i = Some b -> m (p + Z.of_nat i) = Some b.
(** [n] bytes from [p] on may be written. *)
Definition writable (m : mem) (p n : Z) : Prop := forall a, p <= a < p + n -> m a <> None.
(** Memory is the same outside of [n] bytes from [p] on. *)
Definition only (m m' : mem) (p n : Z) : Prop := forall a, ~ (p <= a < p + n) -> m' a = m a.
(** Bytes, and bytes of a string. *)
Definition byte (b : Z) : Prop := 0 <= b < 256.
Definition chr (b : Z) : Prop := 0 < b < 256.
(** A terminated string. *)
Definition str (m : mem) (p : Z) (l : list Z) : Prop := bytes m p (l ++ [0]) /\ Forall chr l.
(** The first [n] characters of a string, which need not be terminated if it has as many. *)
Definition nstr (m : mem) (p : Z) (n : nat) (l : list Z) : Prop :=
  Forall chr l /\ ((length l = n /\ bytes m p l) \/ ((length l < n)%nat /\ str m p l)).

(** [r] tells how the bytes [l1] compare with [l2] at the first difference. *)
Definition compared (l1 l2 : list Z) (r : Z) : Prop :=
  (l1 = l2 /\ r = 0) \/
  exists p a b t1 t2, l1 = p ++ a :: t1 /\ l2 = p ++ b :: t2 /\ a <> b /\ r = a - b.

(** [b] occurs first at index [i] / last at index [i]. *)
Definition first_at (l : list Z) (b : Z) (i : nat) : Prop :=
  nth_error l i = Some b /\ forall j, (j < i)%nat -> nth_error l j <> Some b.
Definition last_at (l : list Z) (b : Z) (i : nat) : Prop :=
  nth_error l i = Some b /\ forall j, (i < j)%nat -> nth_error l j <> Some b.

(** [u] occurs in [l] at index [i]. *)
Definition occurs (u l : list Z) (i : nat) : Prop := exists a b, l = a ++ u ++ b /\ length a = i.

(** Length of the longest prefix whose bytes all satisfy [P]. *)
Definition span (P : Z -> Prop) (l : list Z) (n : nat) : Prop :=
  exists a b, l = a ++ b /\ length a = n /\ Forall P a /\ match b with [] => True | x :: _ => ~ P x end.

(** strtok: what successive calls with delimiter sets [ds] return for what remains of a string:
    [None] for null, or where the field starts and its bytes. *)
Inductive tokens : option (Z * list Z) -> list (list Z) -> list (option (Z * list Z)) -> Prop :=
| tok_nil st : tokens st [] []
| tok_done d ds rs : tokens None ds rs -> tokens None (d :: ds) (None :: rs)
| tok_empty p l d ds rs : Forall (fun b => In b d) l -> tokens None ds rs ->
    tokens (Some (p, l)) (d :: ds) (None :: rs)
| tok_last p pre f d ds rs : Forall (fun b => In b d) pre -> f <> [] -> Forall (fun b => ~ In b d) f ->
    tokens None ds rs ->
    tokens (Some (p, pre ++ f)) (d :: ds) (Some (p + zlen pre, f) :: rs)
| tok_field p pre f x rest d ds rs : Forall (fun b => In b d) pre -> f <> [] -> Forall (fun b => ~ In b d) f ->
    In x d -> tokens (Some (p + zlen pre + zlen f + 1, rest)) ds rs ->
    tokens (Some (p, pre ++ f ++ x :: rest)) (d :: ds) (Some (p + zlen pre, f) :: rs).
