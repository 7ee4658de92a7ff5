(** What the table of identifiers and goto labels must do. *)
From Verif Require Import Base.

Definition name := list Z.
Definition sameb (a b : name) : bool := if list_eq_dec Z.eq_dec a b then true else false.
(** A history of the table: an identifier occurs in the source; a label is used ([def = false]) or
    defined; a block begins; a block ends; a stretch in which there can be no statements, such as a
    constant expression, ends; the body of a function ends. *)
Inductive op := OName (n : name) | OLabel (n : name) (def : bool) | OOpen | OClose | ODrop | OEnd.

Record label := Lab { lname : name; lnum : Z; used : bool; defined : bool }.
Record tables := Tables { names : list name; labels : list label; next : Z; opened : list nat }.
Definition empty (next : Z) : tables := Tables [] [] next [].
Definition mem (ns : list name) (n : name) : bool := existsb (sameb n) ns.
Definition islabel (ls : list label) (n : name) : bool := mem (map lname ls) n.
(** a name takes its characters and two bytes; its index is the bytes taken before it *)
Definition size (ns : list name) : Z := fold_right (fun n t => zlen n + 2 + t) 0 ns.
Fixpoint index (ns : list name) (n : name) : option Z :=
  match ns with
  | [] => None
  | k :: ns => if sameb k n then Some 0 else let? i := index ns n in Some (zlen k + 2 + i)
  end.
Definition room : Z := 5632.
Definition maxlabels : Z := 16.

(** [Refused]: the compiler must stop; [Unordered]: see below *)
Inductive outcome := Done (t : tables) (out : Z) | Refused | Unordered.
Definition mention (t : tables) (n : name) : option (tables * Z) :=
  match index (names t) n with
  | Some i => Some (t, i)
  | None =>
      if (127 <=? zlen n) || (room <? size (names t) + zlen n + 2) then None else
      Some (Tables (names t ++ [n]) (labels t) (next t) (opened t), size (names t))
  end.
Fixpoint mark (ls : list label) (n : name) (def : bool) : option (option (list label * Z)) :=
  match ls with
  | [] => None                                      (* not a label yet *)
  | l :: ls' =>
      if sameb (lname l) n then
        if def && defined l then Some None          (* defined twice *)
        else Some (Some (Lab n (lnum l) (used l || negb def) (defined l || def) :: ls', lnum l))
      else match mark ls' n def with
           | Some (Some (ls'', k)) => Some (Some (l :: ls'', k))
           | r => r
           end
  end.
Definition step (t : tables) (o : op) : outcome :=
  match o with
  | OName n => match mention t n with Some (t, i) => Done t i | None => Refused end
  | OLabel n def =>
      match mark (labels t) n def with
      | Some (Some (ls, k)) => Done (Tables (names t) ls (next t) (opened t)) k
      | Some None => Refused
      | None =>
          if maxlabels <=? zlen (labels t) then Refused else
          match mention t n with
          | Some (t, _) => Done (Tables (names t) (labels t ++ [Lab n (next t) (negb def) def]) (next t + 1) (opened t)) (next t)
          | None => Refused
          end
      end
  | OOpen => Done (Tables (names t) (labels t) (next t) (length (names t) :: opened t)) 0
  | OClose =>
      match opened t with
      | [] => Refused
      | m :: ms =>
          (* the labels keep their names; all other names of the block are forgotten *)
          let kept := filter (islabel (labels t)) (skipn m (names t)) in
          if list_eq_dec (list_eq_dec Z.eq_dec) (filter (mem (skipn m (names t))) (map lname (labels t))) kept then
            Done (Tables (firstn m (names t) ++ kept) (labels t) (next t) ms) 0
          else Unordered       (* labels were not first used in the order their names appeared *)
      end
  | ODrop =>
      match opened t with
      | [] => Refused
      | m :: ms =>
          if existsb (islabel (labels t)) (skipn m (names t)) then Unordered      (* there is a label in it *)
          else Done (Tables (firstn m (names t)) (labels t) (next t) ms) 0
      end
  | OEnd =>
      match opened t with
      | [] => Refused
      | m :: ms =>
          if existsb (fun l => used l && negb (defined l)) (labels t) then Refused       (* no such label *)
          else Done (Tables (firstn m (names t)) [] (next t) ms) 0
      end
  end.
(** the results of the steps, in order *)
Inductive outcomes := Dones (t : tables) (outs : list Z) | Refuseds | Unordereds.
Fixpoint steps (t : tables) (h : list op) : outcomes :=
  match h with
  | [] => Dones t []
  | o :: h =>
      match step t o with
      | Done t i => match steps t h with Dones t is => Dones t (i :: is) | r => r end
      | Refused => Refuseds
      | Unordered => Unordereds
      end
  end.
Definition mentions (o : op) : list name := match o with OName n => [n] | OLabel n _ => [n] | _ => [] end.
(** names hold no 0 byte *)
Definition okop (o : op) : Prop := Forall (Forall (fun c => c <> 0)) (mentions o).
