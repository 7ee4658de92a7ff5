(** Model of buffered input and output, v0100/srclib: fillbuf.c, flushbuf.c, fgetc.c, fputc.c, fread.c,
    fwrite.c, ungetc.c, fflush.c, ftell.c, fseek.c, rewind.c, fgets.c, fputs.c, setvbuf.c and the part of
    fopen.c that sets the stream up, with the system calls underneath.
    Not modelled: string streams (_IOSTRING), the flushing of stdout and stderr before reading stdin
    (fillbuf.c 61-67) and DOS's static buffer for stdin (fillbuf.c 36-49).
    [Oob]: the buffer is accessed out of bounds. *)
From Verif Require Import Base LexModel.

(** ** the stream (istdio.h 10-25, the flags as Booleans, 30-45), the file and the system
    [rd] _IORD, [wr] _IOWR, [rwok] _IORWOK, [bin] _IOBINARY, [app] _IOAPPEND, [ungot] _IOUNGOT, [eof] _IOEOF,
    [err] _IOERR, [nbf] _IONBF, [lbf] _IOLBF; [buf] is f->buf ([None]: NULL; the one-byte buffer &f->c is a
    list of one byte), [ptr] is f->ptr - f->buf.
    The file: its bytes [data] and the position [pos] of the descriptor; [sent]: all bytes the system accepted
    for writing, in order.  [rsch] and [wsch]: how many bytes each coming read or write system call transfers
    at most (negative: the call fails; when the list ends, all that is asked for).  [mem]: whether malloc
    succeeds for this stream's buffer. *)
Record st := mkSt {
  rd : bool; wr : bool; rwok : bool; bin : bool; app : bool; ungot : bool; eof : bool; err : bool; nbf : bool; lbf : bool;
  buf : option (list Z); ptr : Z; cnt : Z; bufsz : Z;
  data : list Z; pos : Z; rsch : list Z; wsch : list Z; sent : list Z; mem : bool }.
Definition setRd (v : bool) (s : st) : st := mkSt v (wr s) (rwok s) (bin s) (app s) (ungot s) (eof s) (err s) (nbf s) (lbf s) (buf s) (ptr s) (cnt s) (bufsz s) (data s) (pos s) (rsch s) (wsch s) (sent s) (mem s).
Definition setWr (v : bool) (s : st) : st := mkSt (rd s) v (rwok s) (bin s) (app s) (ungot s) (eof s) (err s) (nbf s) (lbf s) (buf s) (ptr s) (cnt s) (bufsz s) (data s) (pos s) (rsch s) (wsch s) (sent s) (mem s).
Definition setUngot (v : bool) (s : st) : st := mkSt (rd s) (wr s) (rwok s) (bin s) (app s) v (eof s) (err s) (nbf s) (lbf s) (buf s) (ptr s) (cnt s) (bufsz s) (data s) (pos s) (rsch s) (wsch s) (sent s) (mem s).
Definition setEof (v : bool) (s : st) : st := mkSt (rd s) (wr s) (rwok s) (bin s) (app s) (ungot s) v (err s) (nbf s) (lbf s) (buf s) (ptr s) (cnt s) (bufsz s) (data s) (pos s) (rsch s) (wsch s) (sent s) (mem s).
Definition setErr_ (v : bool) (s : st) : st := mkSt (rd s) (wr s) (rwok s) (bin s) (app s) (ungot s) (eof s) v (nbf s) (lbf s) (buf s) (ptr s) (cnt s) (bufsz s) (data s) (pos s) (rsch s) (wsch s) (sent s) (mem s).
Definition setNbf (v : bool) (s : st) : st := mkSt (rd s) (wr s) (rwok s) (bin s) (app s) (ungot s) (eof s) (err s) v (lbf s) (buf s) (ptr s) (cnt s) (bufsz s) (data s) (pos s) (rsch s) (wsch s) (sent s) (mem s).
Definition setLbf (v : bool) (s : st) : st := mkSt (rd s) (wr s) (rwok s) (bin s) (app s) (ungot s) (eof s) (err s) (nbf s) v (buf s) (ptr s) (cnt s) (bufsz s) (data s) (pos s) (rsch s) (wsch s) (sent s) (mem s).
Definition setBuf (v : option (list Z)) (s : st) : st := mkSt (rd s) (wr s) (rwok s) (bin s) (app s) (ungot s) (eof s) (err s) (nbf s) (lbf s) v (ptr s) (cnt s) (bufsz s) (data s) (pos s) (rsch s) (wsch s) (sent s) (mem s).
Definition setPtr (v : Z) (s : st) : st := mkSt (rd s) (wr s) (rwok s) (bin s) (app s) (ungot s) (eof s) (err s) (nbf s) (lbf s) (buf s) v (cnt s) (bufsz s) (data s) (pos s) (rsch s) (wsch s) (sent s) (mem s).
Definition setCnt (v : Z) (s : st) : st := mkSt (rd s) (wr s) (rwok s) (bin s) (app s) (ungot s) (eof s) (err s) (nbf s) (lbf s) (buf s) (ptr s) v (bufsz s) (data s) (pos s) (rsch s) (wsch s) (sent s) (mem s).
Definition setBufsz (v : Z) (s : st) : st := mkSt (rd s) (wr s) (rwok s) (bin s) (app s) (ungot s) (eof s) (err s) (nbf s) (lbf s) (buf s) (ptr s) (cnt s) v (data s) (pos s) (rsch s) (wsch s) (sent s) (mem s).
Definition setData (v : list Z) (s : st) : st := mkSt (rd s) (wr s) (rwok s) (bin s) (app s) (ungot s) (eof s) (err s) (nbf s) (lbf s) (buf s) (ptr s) (cnt s) (bufsz s) v (pos s) (rsch s) (wsch s) (sent s) (mem s).
Definition setPos (v : Z) (s : st) : st := mkSt (rd s) (wr s) (rwok s) (bin s) (app s) (ungot s) (eof s) (err s) (nbf s) (lbf s) (buf s) (ptr s) (cnt s) (bufsz s) (data s) v (rsch s) (wsch s) (sent s) (mem s).
Definition setRsch (v : list Z) (s : st) : st := mkSt (rd s) (wr s) (rwok s) (bin s) (app s) (ungot s) (eof s) (err s) (nbf s) (lbf s) (buf s) (ptr s) (cnt s) (bufsz s) (data s) (pos s) v (wsch s) (sent s) (mem s).
Definition setWsch (v : list Z) (s : st) : st := mkSt (rd s) (wr s) (rwok s) (bin s) (app s) (ungot s) (eof s) (err s) (nbf s) (lbf s) (buf s) (ptr s) (cnt s) (bufsz s) (data s) (pos s) (rsch s) v (sent s) (mem s).
Definition setSent (v : list Z) (s : st) : st := mkSt (rd s) (wr s) (rwok s) (bin s) (app s) (ungot s) (eof s) (err s) (nbf s) (lbf s) (buf s) (ptr s) (cnt s) (bufsz s) (data s) (pos s) (rsch s) (wsch s) v (mem s).

(** what the file contains after the bytes [l] are written at [at_] (a hole is filled with zeros) *)
Definition overlay (d : list Z) (at_ : Z) (l : list Z) : list Z :=
  match l with
  | [] => d
  | _ => firstn (Z.to_nat at_) d ++ repeat 0 (Z.to_nat at_ - length d) ++ l ++ skipn (Z.to_nat at_ + length l) d
  end.

(** read.c 177-188: the bytes read, or an error; at the end of the file 0 bytes *)
Definition sysRead (n : Z) (s : st) : Z * list Z * st :=
  let k := hd n (rsch s) in
  let s := setRsch (tl (rsch s)) s in
  if k <? 0 then (-1, [], s) else
  let m := Z.min n (Z.min (Z.max 1 k) (Z.max 0 (zlen (data s) - pos s))) in
  (m, firstn (Z.to_nat m) (skipn (Z.to_nat (pos s)) (data s)), setPos (pos s + m) s).
(** write.c 176-187: how many of the bytes were written, or -1; a descriptor opened with O_APPEND writes
    at the end of the file *)
Definition sysWrite (bs : list Z) (s : st) : Z * st :=
  let k := hd (zlen bs) (wsch s) in
  let s := setWsch (tl (wsch s)) s in
  if k <? 0 then (-1, s) else
  let l := firstn (Z.to_nat k) bs in
  let at_ := if app s then zlen (data s) else pos s in
  (zlen l, setSent (sent s ++ l) (setPos (at_ + zlen l) (setData (overlay (data s) at_ l) s))).
(** lseek.c 104-115: SEEK_SET 0, SEEK_CUR 1, SEEK_END 2; positions beyond 2^31 - 1 are refused *)
Definition SEEK_SET : Z := 0.
Definition SEEK_CUR : Z := 1.
Definition SEEK_END : Z := 2.
Definition sysSeek (off whence : Z) (s : st) : Z * st :=
  let t := (if whence =? SEEK_SET then 0 else if whence =? SEEK_CUR then pos s else zlen (data s)) + off in
  if (t <? 0) || (2 ^ 31 <=? t) then (-1, s) else (t, setPos t s).

Definition EOF : Z := -1.
Definition BUFSIZ : Z := 1024.

(** ** fillbuf.c 17-85 *)
Definition fillbuf (s : st) : res (Z * st) :=
  if wr s then Ok (EOF, s) else
  if eof s then Ok (EOF, s) else
  let s := setRd true s in
  let s := match buf s with
    | Some _ => s
    | None =>
        if negb (nbf s) && mem s then setBufsz BUFSIZ (setBuf (Some (repeat 0 (Z.to_nat BUFSIZ))) s)
        else setLbf false (setBufsz 1 (setBuf (Some [0]) s))
    end in
  let s := setPtr 0 (setUngot false s) in
  let '(r, bs, s) := sysRead (bufsz s) s in
  if r <=? 0 then
    let s := if r =? 0 then setEof true s else setErr_ true s in
    Ok (EOF, setCnt 0 s)
  else
    let! b := inb (buf s) in
    if zlen b <? r then Oob else
    let b := bs ++ skipn (Z.to_nat r) b in
    let! c := inb (zget b 0) in
    Ok (c, setPtr 1 (setCnt (r - 1) (setBuf (Some b) s))).

(** one byte taken from the buffer: *f->ptr++ with f->cnt-- *)
Definition take1 (s : st) : res (Z * st) :=
  let! b := inb (buf s) in
  let! c := inb (zget b (ptr s)) in
  Ok (c, setPtr (ptr s + 1) (setCnt (cnt s - 1) s)).
(** fgetc.c 14-22 *)
Definition fgetc1 (s : st) : res (Z * st) := if negb (cnt s =? 0) then take1 s else fillbuf s.
(** fgetc.c 24-39; [crlf]: not UNIX_LIKE *)
Definition text (crlf : bool) (s : st) : bool := crlf && negb (bin s).
Fixpoint fgetcText (fuel : nat) (s : st) : res (Z * st) :=
  match fuel with
  | O => Oob
  | S fuel => let! (c, s) := fgetc1 s in if negb (c =? 13) then Ok (c, s) else fgetcText fuel s
  end.
Definition ahead (s : st) : nat := Z.to_nat (cnt s) + length (data s).
Definition fgetc (crlf : bool) (s : st) : res (Z * st) :=
  if text crlf s then fgetcText (S (ahead s)) s else fgetc1 s.

(** ** fread.c 17-90; the bytes stored are a list *)
Definition takeN (n : Z) (s : st) : res (list Z * st) :=
  if n =? 0 then Ok ([], s) else
  let! b := inb (buf s) in
  if (ptr s <? 0) || (zlen b <? ptr s + n) then Oob else
  Ok (firstn (Z.to_nat n) (skipn (Z.to_nat (ptr s)) b), setPtr (ptr s + n) (setCnt (cnt s - n) s)).
(** 30-55 *)
Fixpoint freadBin (fuel : nat) (size : Z) (p : list Z) (s : st) : res (Z * list Z * st) :=
  match fuel with
  | O => Oob
  | S fuel =>
      if size =? 0 then Ok (size, p, s) else
      let! (brk, size, p, s) :=
        (if cnt s <? size then
           let k := cnt s in
           let! (l, s) := takeN k s in
           let p := p ++ l in let size := size - k in
           let! (c, s) := fillbuf s in
           if c =? EOF then Ok (true, size, p, s) else Ok (false, size - 1, p ++ [c], s)
         else Ok (false, size, p, s)) in
      if brk : bool then Ok (size, p, s) else
      if size <=? cnt s then let! (l, s) := takeN size s in Ok (0, p ++ l, s)
      else freadBin fuel size p s
  end.
(** 64-69 and 78-83: while (f->cnt && size), dropping '\r' *)
Fixpoint takeText (fuel : nat) (size : Z) (p : list Z) (s : st) : res (Z * list Z * st) :=
  match fuel with
  | O => Oob
  | S fuel =>
      if (cnt s =? 0) || (size =? 0) then Ok (size, p, s) else
      let! (c, s) := take1 s in
      if negb (c =? 13) then takeText fuel (size - 1) (p ++ [c]) s else takeText fuel size p s
  end.
(** 60-85; in the loop of lines 64-69 size cannot become 0 since f->cnt < size *)
Fixpoint freadText (fuel : nat) (size : Z) (p : list Z) (s : st) : res (Z * list Z * st) :=
  match fuel with
  | O => Oob
  | S fuel =>
      if size =? 0 then Ok (size, p, s) else
      let! (brk, size, p, s) :=
        (if cnt s <? size then
           let! (size, p, s) := takeText (S (ahead s)) size p s in
           let! (c, s) := fillbuf s in
           if c =? EOF then Ok (true, size, p, s)
           else if negb (c =? 13) then Ok (false, size - 1, p ++ [c], s) else Ok (false, size, p, s)
         else Ok (false, size, p, s)) in
      if brk : bool then Ok (size, p, s) else
      let! (size, p, s) := (if size <=? cnt s then takeText (S (ahead s)) size p s else Ok (size, p, s)) in
      freadText fuel size p s
  end.
Definition fread (crlf : bool) (esize ecount : Z) (s : st) : res (Z * list Z * st) :=
  let size := u32 (esize * ecount) in
  if size =? 0 then Ok (0, [], s) else
  let! (size, p, s) := (if text crlf s then freadText else freadBin) (S (S (ahead s))) size [] s in
  Ok (u32 (ecount - u32 (size + esize - 1) / esize), p, s).

(** ** ungetc.c 7-28 *)
Definition ungetc (c : Z) (s : st) : res (Z * st) :=
  if c =? EOF then Ok (EOF, s) else
  if ptr s =? 0 then Ok (EOF, s) else
  let s := setCnt (cnt s + 1) (setPtr (ptr s - 1) s) in
  let! b := inb (buf s) in
  let! x := inb (zget b (ptr s)) in
  let! s := (if negb (x =? u8 c) then let! b := inb (zset b (ptr s) (u8 c)) in Ok (setUngot true (setBuf (Some b) s)) else Ok s) in
  Ok (u8 c, setEof false s).

(** ** flushbuf.c 15-54 *)
Definition flushbuf (c : Z) (s : st) : res (Z * st) :=
  if rd s then Ok (EOF, s) else
  let s := setWr true s in
  let s := match buf s with
    | Some _ => s
    | None =>
        if negb (nbf s) && mem s then setPtr 0 (setCnt BUFSIZ (setBufsz BUFSIZ (setBuf (Some (repeat 0 (Z.to_nat BUFSIZ))) s)))
        else setLbf false (setPtr 0 (setCnt 1 (setBufsz 1 (setBuf (Some [0]) s))))
    end in
  let! b := inb (buf s) in
  let '(bad, s) :=
    (if negb (ptr s =? 0) then
       let '(w, s) := sysWrite (firstn (Z.to_nat (bufsz s)) b) s in
       ((w <=? 0) || negb (w =? bufsz s), s)
     else (false, s)) in
  if bad : bool then Ok (EOF, setErr_ true s) else
  let! b := inb (zset b 0 (u8 c)) in
  Ok (u8 c, setPtr 1 (setCnt (bufsz s - 1) (setBuf (Some b) s))).

(** fflush.c 8-28 *)
Definition fflush (s : st) : res (Z * st) :=
  if wr s then
    let! (bad, s) :=
      (if negb (ptr s =? 0) then
         let! b := inb (buf s) in
         let sz := bufsz s - cnt s in
         let '(w, s) := sysWrite (firstn (Z.to_nat sz) b) s in
         Ok ((w <=? 0) || negb (w =? sz), s)
       else Ok (false, s)) in
    if bad : bool then Ok (EOF, setErr_ true s) else
    let s := setCnt 0 (setPtr 0 s) in
    Ok (0, if rwok s then setWr false s else s)
  else Ok (0, s).

(** one byte put into the buffer: *f->ptr++ = c with f->cnt-- *)
Definition put1 (c : Z) (s : st) : res st :=
  let! b := inb (buf s) in
  let! b := inb (zset b (ptr s) (u8 c)) in
  Ok (setPtr (ptr s + 1) (setCnt (cnt s - 1) (setBuf (Some b) s))).
(** fputc.c 14-40 *)
Definition fputc1 (c : Z) (s : st) : res (Z * st) :=
  let! (r, s) := (if negb (cnt s =? 0) then let! s := put1 c s in Ok (u8 c, s) else flushbuf c s) in
  if r =? EOF then Ok (EOF, s) else
  if nbf s || (lbf s && (c =? 10)) then
    let! (e, s) := fflush s in
    if negb (e =? 0) then Ok (EOF, s) else Ok (r, s)
  else Ok (r, s).
(** fputc.c 42-49 *)
Definition fputc (crlf : bool) (c : Z) (s : st) : res (Z * st) :=
  if (c =? 10) && text crlf s then let! (_, s) := fputc1 13 s in fputc1 c s else fputc1 c s.

(** ** fwrite.c 17-92; [p]: the bytes still to be written *)
(** 27-32 *)
Fixpoint fwriteChars (crlf : bool) (p : list Z) (s : st) : res (Z * st) :=
  match p with
  | [] => Ok (0, s)
  | c :: q => let! (r, s) := fputc crlf c s in if r =? EOF then Ok (zlen p, s) else fwriteChars crlf q s
  end.
(** memcpy(f->ptr, l, n) and the advance *)
Definition putN (l : list Z) (s : st) : res st :=
  match l with
  | [] => Ok s
  | _ =>
      let! b := inb (buf s) in
      if (ptr s <? 0) || (zlen b <? ptr s + zlen l) then Oob else
      Ok (setPtr (ptr s + zlen l) (setCnt (cnt s - zlen l)
        (setBuf (Some (firstn (Z.to_nat (ptr s)) b ++ l ++ skipn (Z.to_nat (ptr s + zlen l)) b)) s)))
  end.
(** 40-65 *)
Fixpoint fwriteBin (fuel : nat) (p : list Z) (s : st) : res (Z * st) :=
  match fuel with
  | O => Oob
  | S fuel =>
      match p with
      | [] => Ok (0, s)
      | _ =>
          let! (brk, p, s) :=
            (if cnt s <? zlen p then
               let k := Z.to_nat (cnt s) in
               let! s := putN (firstn k p) s in
               let p := skipn k p in
               let! c := inb (hd_error p) in
               let! (r, s) := flushbuf c s in
               if r =? EOF then Ok (true, p, s) else Ok (false, tl p, s)
             else Ok (false, p, s)) in
          if brk : bool then Ok (zlen p, s) else
          if zlen p <=? cnt s then let! s := putN p s in Ok (0, s) else fwriteBin fuel p s
      end
  end.
(** 75-78 and 81-84 *)
Definition putc1 (c : Z) (s : st) : res (Z * st) :=
  if negb (cnt s =? 0) then let! s := put1 c s in Ok (u8 c, s) else flushbuf c s.
(** 70-87 *)
Fixpoint fwriteText (p : list Z) (s : st) : res (Z * st) :=
  match p with
  | [] => Ok (0, s)
  | c :: q =>
      let! (r, s) := (if c =? 10 then putc1 13 s else Ok (0, s)) in
      if r =? EOF then Ok (zlen p, s) else
      let! (r, s) := putc1 c s in
      if r =? EOF then Ok (zlen p, s) else fwriteText q s
  end.
(** [mem_]: the bytes at the pointer *)
Definition fwrite (crlf : bool) (mem_ : list Z) (esize ecount : Z) (s : st) : res (Z * st) :=
  let size := u32 (esize * ecount) in
  if size =? 0 then Ok (0, s) else
  let p := firstn (Z.to_nat size) mem_ in
  if zlen p <? size then Oob else
  let! (size, s) :=
    (if nbf s || lbf s then fwriteChars crlf p s
     else if text crlf s then fwriteText p s
     else fwriteBin (S (length p)) p s) in
  Ok (u32 (ecount - u32 (size + esize - 1) / esize), s).

(** ** ftell.c 10-33 (the file is smaller than 2^31 bytes: no overflow) *)
Definition ftell (s : st) : Z * st :=
  let '(p, s) := sysSeek 0 SEEK_CUR s in
  if p =? -1 then (-1, s) else
  if rd s then (p - cnt s, s) else
  if wr s && negb (ptr s =? 0) then (p + ptr s, s) else (p, s).

(** ** fseek.c 9-68 *)
(** 46-67 *)
Definition seekSlow (offset whence : Z) (s : st) : res (Z * st) :=
  let! (e, s) := fflush s in
  if negb (e =? 0) then Ok (-1, s) else
  let s := if rwok s then setWr false (setRd false s) else s in
  let s := setCnt 0 (setPtr 0 (setUngot false s)) in
  if app s then Ok (0, s) else
  let '(t, s) := sysSeek offset whence s in
  if t =? -1 then Ok (-1, s) else Ok (0, s).
Definition fseek (offset whence : Z) (s : st) : res (Z * st) :=
  let s := setEof false s in
  if negb (rwok s) && rd s && negb (ungot s) && negb (whence =? SEEK_END) && match buf s with Some _ => true | None => false end then
    if whence =? SEEK_CUR then
      if (0 <=? offset) && (offset <=? cnt s) || (offset <? 0) && (0 - ptr s <=? offset)
      then Ok (0, setCnt (cnt s - offset) (setPtr (ptr s + offset) s))
      else seekSlow offset whence s
    else
      let '(p, s) := ftell s in
      if p =? -1 then Ok (-1, s) else
      if (p <=? offset) && (offset - p <=? cnt s) || (0 <=? offset) && (offset <? p) && (p - offset <=? ptr s)
      then Ok (0, setCnt (cnt s - (offset - p)) (setPtr (ptr s + (offset - p)) s))
      else seekSlow offset whence s
  else seekSlow offset whence s.

(** rewind.c *)
Definition rewind (s : st) : res st :=
  let! (_, s) := fflush s in
  let s := if rwok s then setWr false (setRd false s) else s in
  let s := setEof false (setErr_ false (setUngot false s)) in
  let s := setCnt 0 (setPtr 0 s) in
  Ok (if app s then s else snd (sysSeek 0 SEEK_SET s)).

(** ** fgets.c 7-18: the bytes stored before the terminating 0, or NULL *)
Fixpoint fgetsLoop (crlf : bool) (fuel : nat) (p : list Z) (s : st) : res (Z * list Z * st) :=
  match fuel with
  | O => Ok (0, p, s)
  | S fuel =>
      let! (c, s) := fgetc crlf s in
      if c =? EOF then Ok (c, p, s) else
      if c =? 10 then Ok (c, p ++ [c], s) else fgetsLoop crlf fuel (p ++ [c]) s
  end.
Definition fgets (crlf : bool) (n : Z) (s : st) : res (option (list Z) * st) :=
  let! (c, p, s) := fgetsLoop crlf (Z.to_nat (n - 1)) [] s in
  Ok (if (c =? EOF) && match p with [] => true | _ => false end then None else Some p, s).
(** fputs.c 7-13; [str]: the characters before the terminating 0 *)
Fixpoint fputsLoop (crlf : bool) (p : list Z) (r : Z) (s : st) : res (Z * st) :=
  match p with
  | [] => Ok (r, s)
  | c :: p => let! (x, s) := fputc crlf c s in fputsLoop crlf p (Z.lor r x) s
  end.
Definition fputs (crlf : bool) (p : list Z) (s : st) : res (Z * st) := fputsLoop crlf p 0 s.

(** ** a new stream: fopen.c 28-76; [mode]: 0 "r", 1 "w", 2 "a", 3 "r+" or "w+" (the file is already truncated
    if the mode says so) *)
Definition fopen (mode : Z) (binary : bool) (file : list Z) (rs ws : list Z) (m : bool) : st :=
  mkSt (mode =? 0) ((mode =? 1) || (mode =? 2)) (mode =? 3) binary (mode =? 2) false false false false false
    None 0 0 0 file 0 rs ws [] m.
(** setvbuf.c 8-35; [md]: _IOFBF 1, _IONBF 2, _IOLBF 4; [given]: the caller passes a buffer *)
Definition setvbuf (given : bool) (md size : Z) (s : st) : Z * st :=
  match buf s with
  | Some _ => (-1, s)
  | None =>
      if negb ((md =? 1) || (md =? 2) || (md =? 4)) then (-1, s) else
      let modes s := setLbf (md =? 4) (setNbf (md =? 2) s) in
      if md =? 2 then (0, modes s) else
      if (size =? 0) || (2147483647 <=? size) then (-1, s) else
      if negb given && negb (mem s) then (-1, s) else
      (0, modes (setPtr 0 (setBufsz size (setBuf (Some (repeat 0 (Z.to_nat size))) s))))
  end.
