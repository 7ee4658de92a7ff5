(** Model of the initialisation of static objects: v0100/smlrc.c InitVar, InitScalar, InitArray,
    InitStruct, with cgx86.c GenIntData, GenAddrData, GenZeroData and what NASM makes of it.

    Simplifications: an expression (ParseExpr) is one token with the value the compiler finds for
    it, converted to the floating or integer type of the object (7381-7393) already; string
    literals that follow each other are one (7480-7495); no wide strings.  A string token stands for
    the characters of the literal.  [Bad] stands for all messages on wrong initialisers. *)
From Verif Require Import Base DeclSpec FoldModel DeclModel InitSpec.
From Verif Require CharSpec.

Section I.
Variable W : Z.                                 (* SizeOfWord *)
Variable cs : bool.                             (* CharIsSigned *)
Variable st : stk.

Definition uz (n : Z) : list cell := zeros (truncUint W (u32 n)).          (* cgx86.c 218-222 GenZeroData *)
(** cgx86.c 224-236 GenIntData: db, dw, dd *)
Definition intData (sz v : Z) : list cell := map CByte (CharSpec.bytes (Z.to_nat sz) (truncInt W v)).
(** cgx86.c 244-270 GenAddrData (not for the huge memory model) *)
Definition addrData (l o : Z) : list cell := map (CAddr l (truncUint W (u32 (truncInt W o)))) (upto W).

Definition isCharKind (k : kind) : bool := match k with KChar | KUChar | KSChar => true | _ => false end.
Definition open (toks : list itok) : bool * list itok :=
  match toks with TLb :: r => (true, r) | _ => (false, toks) end.
(** the closing brace, if there was an opening one *)
Definition close (braces : bool) (toks : list itok) : res (list itok) :=
  if braces then match toks with TRb :: r => Ok r | _ => Bad end else Ok toks.

(** smlrc.c 7337-7437 InitScalar *)
Definition initScalar (q : Z) (toks : list itok) : res (list cell * list itok) :=
  let! sz := getDeclSize W cs st q false in
  let sz := u32 sz in
  let (braces, toks) := open toks in
  match toks with
  | TExpr e :: toks =>
      let! toks := close braces toks in
      match e with
      | SNum v => Ok (intData sz v, toks)
      | SAddr l o => if sz =? W then Ok (addrData l o, toks) else Bad
      | SStr s => if sz =? W then Ok (map (CStr s) (upto W), toks) else Bad
      | SVar => Bad
      end
  | _ => Bad
  end.

(** smlrc.c 7512-7540 InitArray, the loop over the elements; [one] initialises an element *)
Fixpoint elements (one : list itok -> res (list cell * list itok)) (fuel : nat) (req cnt : Z)
    (braces : bool) (toks : list itok) : res (list cell * Z * list itok) :=
  match fuel with
  | O => Internal
  | S fuel =>
      match toks with
      | TRb :: _ => Ok ([], cnt, toks)
      | _ =>
          let! (d, toks) := one toks in
          let cnt := u32 (cnt + 1) in
          if (req <=? cnt) && negb (req =? 0) then
            Ok (d, cnt, match toks with TComma :: r => if braces then r else toks | _ => toks end)
          else
            match toks with
            | TComma :: toks =>
                let! (d', cnt, toks) := elements one fuel req cnt braces toks in Ok (d ++ d', cnt, toks)
            | TRb :: _ => Ok (d, cnt, toks)
            | _ => Bad
            end
      end
  end.

(** smlrc.c 7439-7556 InitArray; gives the number of elements too *)
Definition initArray (one : Z -> list itok -> res (list cell * list itok)) (q : Z) (toks : list itok)
  : res (list cell * Z * list itok) :=
  match zget st (q + 1), zget st (q + 3) with
  | Some (_, req), Some (ek, _) =>
      let req := u32 req in
      let! esz := getDeclSize W cs st (q + 3) false in
      let esz := u32 esz in
      let (braces, toks) := open toks in
      let strg :=
        match toks with
        | TExpr (SStr s) :: toks => if isCharKind ek then Some (s, toks) else None
        | _ => None
        end in
      match strg with
      | Some (s, toks) =>
          let len := zlen s in
          if truncUint W (u32 (-1)) <=? len then Bad
          else if negb (req =? 0) && (req <? len) then Bad
          else
            let! toks := close braces toks in
            Ok (map CByte s ++ (if len <? req then uz ((req - len) * esz) else []) ++
                  (if req =? 0 then uz esz else []),
                (if req =? 0 then u32 (len + 1) else len), toks)
      | None =>
          let! (d, cnt, toks) := elements (one (q + 3)) (S (length toks)) req 0 braces toks in
          if braces && (cnt =? 0) then Bad
          else
            let! toks := close braces toks in
            Ok (d ++ (if cnt <? req then uz ((req - cnt) * esz) else []), cnt, toks)
      end
  | _, _ => Internal
  end.

(** smlrc.c 7600-7661 InitStruct, the loop over the members; the next one has its offset at [p],
    its type at place [q]; [ofs]: what is initialised so far *)
Fixpoint memberLoop (one : Z -> list itok -> res (list cell * list itok)) (fuel : nat) (union : bool)
    (p q ofs : Z) (braces : bool) (toks : list itok) : res (list cell * Z * list itok) :=
  match fuel with
  | O => Internal
  | S fuel =>
      match toks with
      | TRb :: _ => Ok ([], ofs, toks)
      | _ =>
          let! sz := getDeclSize W cs st q false in
          let pad := if ofs <? p then uz (p - ofs) else [] in
          let! (d, toks) := one q toks in
          let ofs := u32 (p + sz) in
          match scanM (skipn (Z.to_nat q) st) q 1 with
          | None => Internal
          | Some next =>
              match next, union with
              | Some (p', q'), false =>
                  match toks with
                  | TComma :: toks =>
                      let! (d', ofs, toks) := memberLoop one fuel union p' q' ofs braces toks in
                      Ok (pad ++ d ++ d', ofs, toks)
                  | TRb :: _ => Ok (pad ++ d, ofs, toks)
                  | _ => Bad
                  end
              | _, _ =>
                  Ok (pad ++ d, ofs, match toks with TComma :: r => if braces then r else toks | _ => toks end)
              end
          end
      end
  end.

(** smlrc.c 7558-7650 InitStruct *)
Definition initStruct (one : Z -> list itok -> res (list cell * list itok)) (j : Z) (toks : list itok)
  : res (list cell * list itok) :=
  match zget st j, zget st (j + 2) with
  | Some (k, _), Some (_, size) =>
      let (braces, toks) := open toks in
      match scanM (skipn (Z.to_nat (j + 5)) st) (j + 5) 1 with
      | Some (Some (p, q)) =>
          let! (d, ofs, toks) := memberLoop one (S (length toks)) (kind_eqb k KUnion) p q 0 braces toks in
          if braces && (ofs =? 0) then Bad
          else
            let! toks := close braces toks in
            Ok (d ++ (if ofs <? size then uz (size - ofs) else []), toks)
      | _ => Internal
      end
  | _, _ => Internal
  end.

(** the choice by type: smlrc.c 7515-7526, 7617-7628.  [fuel]: how deep types may be nested.  An
    inner array of unknown length does not occur. *)
Fixpoint init (fuel : nat) (q : Z) (toks : list itok) : res (list cell * list itok) :=
  match fuel with
  | O => Internal
  | S fuel =>
      match zget st q with
      | None => Internal
      | Some (k, j) =>
          match k with
          | KLb => let! (d, _, toks) := initArray (init fuel) q toks in Ok (d, toks)
          | KStructPtr => initStruct (init fuel) j toks
          | _ => initScalar q toks
          end
      end
  end.

(** smlrc.c 7291-7335 InitVar; [q] is the place after the name.  Gives the data, what comes
    after the initialiser, and the new length of an array of unknown length. *)
Definition initVar (fuel : nat) (q : Z) (toks : list itok) : res (list cell * option Z * list itok) :=
  match zget st q with
  | None => Internal
  | Some (k, j) =>
      let! (d, n, toks) :=
        match k with
        | KLb =>
            let! _ := match toks with
                      | TLb :: _ => Ok tt
                      | TExpr (SStr _) :: _ =>
                          match zget st (q + 3) with
                          | Some (ek, _) => if isCharKind ek then Ok tt else Bad
                          | None => Internal
                          end
                      | _ => Bad
                      end in
            let! (d, cnt, toks) := initArray (init fuel) q toks in
            Ok (d, match zget st (q + 1) with Some (_, req) => if u32 req =? 0 then Some cnt else None | None => None end, toks)
        | KStructPtr =>
            match toks with
            | TLb :: _ => let! (d, toks) := initStruct (init fuel) j toks in Ok (d, None, toks)
            | _ => Bad
            end
        | _ => let! (d, toks) := initScalar q toks in Ok (d, None, toks)
        end in
      match toks with
      | (TComma | TSemi) :: _ => Ok (d, n, toks)
      | _ => Bad
      end
  end.
End I.
