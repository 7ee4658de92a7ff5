(** Model of the identifier table and the goto labels: v0100/smlrc.c. *)
From Verif Require Import Base NumModel LexSpec LexModel IdentSpec.

(** smlrc.c 566-576: IdentTable, IdentTableLen; gotoLabels with gotoLabStat up to gotoLabCnt (the
    arrays have MAX_GOTO_LABELS elements); LabelCnt.  [undo]: the values of IdentTableLen saved in
    undoIdents by the enclosing blocks. *)
Definition MAXI : Z := 5632.
Definition MAX_GOTO_LABELS : Z := 16.
Record ids := Ids { tab : list Z; ilen : Z; labs : list (Z * Z * Z); lcnt : Z; undo : list Z }.

(** smlrc.c 841-851 FindIdent *)
Fixpoint find (fuel : nat) (t : list Z) (i : Z) (nm : list Z) : res Z :=
  match fuel with
  | O => Oob
  | S fuel =>
      if 0 <? i then
        let! l := inb (zget t (i - 1)) in
        let i := i - (1 + l) in
        let! e := streq t i nm in
        if e : bool then Ok i else find fuel t i nm
      else Ok (-1)
  end.
Definition findIdent (s : ids) (nm : list Z) : res Z := find (S (Z.to_nat (ilen s))) (tab s) (ilen s) nm.
(** smlrc.c 853-875 AddIdent *)
Definition addIdent (s : ids) (nm : list Z) : res (ids * Z) :=
  let! i := findIdent s nm in
  if 0 <=? i then Ok (s, i) else
  let len := zlen nm in
  if 127 <=? len then Err else
  if MAXI - ilen s <? len + 2 then Err else
  let! t := copyStr (tab s) (ilen s) nm in
  let n := ilen s + (len + 1) in
  let! t := inb (zset t n (len + 1)) in
  Ok (Ids t (n + 1) (labs s) (lcnt s) (undo s), ilen s).
(** smlrc.c 887-907 AddGotoLabel; [label]: 1 for a definition, 0 for a goto *)
Fixpoint findLabel (t : list Z) (ls : list (Z * Z * Z)) (nm : list Z) (label : Z) : res (option (list (Z * Z * Z) * Z)) :=
  match ls with
  | [] => Ok None
  | (p, k, st) :: ls =>
      let! e := streq t p nm in
      if e : bool then
        if negb (Z.land st label =? 0) then Err
        else Ok (Some ((p, k, Z.lor st (2 * (if label =? 0 then 1 else 0) + label)) :: ls, k))
      else
        let! r := findLabel t ls nm label in
        match r with Some (ls, k') => Ok (Some ((p, k, st) :: ls, k')) | None => Ok None end
  end.
Definition addGotoLabel (s : ids) (nm : list Z) (label : Z) : res (ids * Z) :=
  let! r := findLabel (tab s) (labs s) nm label in
  match r with
  | Some (ls, k) => Ok (Ids (tab s) (ilen s) ls (lcnt s) (undo s), k)
  | None =>
      if MAX_GOTO_LABELS <=? zlen (labs s) then Err else
      let! (s, i) := addIdent s nm in
      Ok (Ids (tab s) (ilen s) (labs s ++ [(i, lcnt s, 2 * (if label =? 0 then 1 else 0) + label)]) (lcnt s + 1) (undo s), lcnt s)
  end.
(** strlen *)
Fixpoint strlen (fuel : nat) (t : list Z) (i : Z) : res Z :=
  match fuel with
  | O => Oob
  | S fuel => let! c := inb (zget t i) in if c =? 0 then Ok 0 else let! l := strlen fuel t (i + 1) in Ok (1 + l)
  end.
(** smlrc.c 909-925 UndoNonLabelIdents *)
Fixpoint undoLoop (len : Z) (t : list Z) (ilen : Z) (ls : list (Z * Z * Z)) : res (list Z * Z * list (Z * Z * Z)) :=
  match ls with
  | [] => Ok (t, ilen, [])
  | (p, k, st) :: ls =>
      if len <=? p then
        let! n := strlen (length t) t p in
        let l := n + 2 in
        let! t := move t ilen p l in
        let! (t, e, ls) := undoLoop len t (ilen + l) ls in Ok (t, e, (ilen, k, st) :: ls)
      else let! (t, e, ls) := undoLoop len t ilen ls in Ok (t, e, (p, k, st) :: ls)
  end.
(** The places where the table is used: AddIdent (smlrc.c 2759, 2918, 7161, ...), AddGotoLabel
    (9638, 9652, 9705), the beginning and end of a block (8785, 8795; 9286, 9435), of a stretch
    whose names are temporary (6678-6680, 6913-6917, 7295-7332), and of a function (8360,
    8422-8424, 8474; gotoLabCnt is set to 0 only where the next function begins, 8371, but the
    labels are not used in between). *)
Definition step (s : ids) (o : op) : res (ids * Z) :=
  match o with
  | OName n => addIdent s n
  | OLabel n def => addGotoLabel s n (if def then 1 else 0)
  | OOpen => Ok (Ids (tab s) (ilen s) (labs s) (lcnt s) (ilen s :: undo s), 0)
  | OClose =>
      match undo s with
      | [] => Err
      | u :: us => let! (t, e, ls) := undoLoop u (tab s) u (labs s) in Ok (Ids t e ls (lcnt s) us, 0)
      end
  | ODrop => match undo s with [] => Err | u :: us => Ok (Ids (tab s) u (labs s) (lcnt s) us, 0) end
  | OEnd =>
      match undo s with
      | [] => Err
      | u :: us => if existsb (fun e => snd e =? 2) (labs s) then Err else Ok (Ids (tab s) u [] (lcnt s) us, 0)
      end
  end.
Fixpoint steps (s : ids) (h : list op) : res (ids * list Z) :=
  match h with
  | [] => Ok (s, [])
  | o :: h => let! (s, i) := step s o in let! (s, is) := steps s h in Ok (s, i :: is)
  end.
Definition start (next : Z) : ids := Ids (repeat 0 (Z.to_nat MAXI)) 0 [] next [].
