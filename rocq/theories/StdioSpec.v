(** What a stream is to its user: a file, a position, the bytes that reading will deliver and the bytes that were
    written.  Only the state record and the meaning of writing to a file ([overlay]) are taken from the model. *)
From Verif Require Import Base LexModel StdioModel.

Record stream := mkStream {
  content : list Z;  (* the file, as if everything written were already in it *)
  position : Z;
  rest : list Z;     (* what reading delivers from here on: characters pushed back, then the file *)
  log : list Z       (* everything written so far *) }.

(** reading [n] bytes *)
Definition taken (n : Z) (i : stream) : stream :=
  mkStream (content i) (position i + n) (skipn (Z.to_nat n) (rest i)) (log i).
(** pushing a character back *)
Definition pushed (c : Z) (i : stream) : stream := mkStream (content i) (position i - 1) (c :: rest i) (log i).
(** going to position [t] *)
Definition moved (t : Z) (i : stream) : stream :=
  mkStream (content i) t (skipn (Z.to_nat t) (content i)) (log i).
(** writing bytes, at the position or (append mode) at the end *)
Definition written (append : bool) (l : list Z) (i : stream) : stream :=
  let a := if append : bool then zlen (content i) else position i in
  let d := overlay (content i) a l in
  mkStream d (a + zlen l) (skipn (Z.to_nat (a + zlen l)) d) (log i ++ l).

(** text streams, where lines end with "\r\n" in the file *)
Definition fromText (t : bool) (l : list Z) : list Z := if t then filter (fun c => negb (c =? 13)) l else l.
Definition toText (t : bool) (l : list Z) : list Z :=
  if t then flat_map (fun c => if c =? 10 then [13; 10] else [c]) l else l.

(** ** the stream a state stands for *)
(** bytes written to the buffer and not yet passed on *)
Definition pending (s : st) : list Z := if wr s then match buf s with Some b => firstn (Z.to_nat (ptr s)) b | None => [] end else [].
(** bytes of the buffer that reading will deliver *)
Definition buffered (s : st) : list Z :=
  match buf s with Some b => firstn (Z.to_nat (cnt s)) (skipn (Z.to_nat (ptr s)) b) | None => [] end.
Definition meaning (s : st) : stream :=
  let c := overlay (data s) (if app s then zlen (data s) else pos s) (pending s) in
  let p := if app s then zlen c else if rd s then pos s - cnt s else pos s + zlen (pending s) in
  mkStream c p (if wr s then skipn (Z.to_nat p) c else buffered s ++ skipn (Z.to_nat (pos s)) (data s)) (sent s ++ pending s).

(** a system call failed (or wrote less than it was asked) between two states *)
Definition readFailed (s s' : st) : Prop := err s' = true /\ exists a k, rsch s = a ++ k :: rsch s' /\ k < 0.
Definition writeFailed (s s' : st) : Prop := err s' = true /\ exists a k b, wsch s = a ++ k :: b ++ wsch s' /\ k < bufsz s'.

(** ** histories of calls on one stream *)
Inductive op := Getc | Read (esize ecount : Z) | Unget (c : Z) | Putc (c : Z) | Write (m : list Z) (esize ecount : Z) | Flush | Seek (offset whence : Z).
Inductive out := Num (r : Z) | Block (n : Z) (l : list Z).
Definition call (crlf : bool) (o : op) (s : st) : res (out * st) :=
  match o with
  | Getc => let! (c, s) := fgetc crlf s in Ok (Num c, s)
  | Read e k => let! (n, l, s) := fread crlf e k s in Ok (Block n l, s)
  | Unget c => let! (r, s) := ungetc c s in Ok (Num r, s)
  | Putc c => let! (r, s) := fputc crlf c s in Ok (Num r, s)
  | Write m e k => let! (n, s) := fwrite crlf m e k s in Ok (Num n, s)
  | Flush => let! (r, s) := fflush s in Ok (Num r, s)
  | Seek off wh => let! (r, s) := fseek off wh s in Ok (Num r, s)
  end.
Fixpoint calls (crlf : bool) (l : list op) (s : st) : res (list out * st) :=
  match l with
  | [] => Ok ([], s)
  | o :: l => let! (x, s) := call crlf o s in let! (xs, s) := calls crlf l s in Ok (x :: xs, s)
  end.

(** sane arguments: an object of less than 2^31 bytes, as large as the call says *)
Definition objectOk (esize ecount : Z) : Prop := 0 < esize /\ 0 < ecount /\ esize * ecount < 2 ^ 31.
Definition args (o : op) : Prop :=
  match o with
  | Read e k => objectOk e k
  | Putc c => 0 <= c < 256
  | Write m e k => objectOk e k /\ zlen m = e * k /\ Forall (fun b => 0 <= b < 256) m
  | Seek _ wh => wh = SEEK_SET \/ wh = SEEK_CUR \/ wh = SEEK_END
  | _ => True
  end.
Definition isRead (o : op) : Prop := match o with Getc | Read _ _ | Unget _ => True | _ => False end.
Definition isWrite (o : op) : Prop := match o with Putc _ | Write _ _ _ | Flush => True | _ => False end.
(** the rule of the C standard: no input directly after output or on a stream for output, and vice versa *)
Definition allowed (o : op) (s : st) : Prop :=
  args o /\ match o with
  | Getc | Read _ _ | Unget _ => wr s = false
  | Putc _ | Write _ _ _ => rd s = false
  | Flush => True
  | Seek _ _ => app s = false
  end.
(** the states that calls lead to *)
Inductive reachable (crlf : bool) : st -> Prop :=
  | reach_open mode binary file rs ws m : 0 <= mode <= 3 -> Forall (fun b => 0 <= b < 256) file -> reachable crlf (fopen mode binary file rs ws m)
  | reach_setvbuf given md size s : reachable crlf s -> 0 <= size -> reachable crlf (snd (setvbuf given md size s))
  | reach_call o x s s' : reachable crlf s -> allowed o s -> call crlf o s = Ok (x, s') -> reachable crlf s'.

(** ** reading, as a user sees it: [l] are the characters still to come *)
Definition delivers (o : op) (x : out) (l l' : list Z) : Prop :=
  match o, x with
  | Getc, Num c => l = c :: l' /\ 0 <= c < 256 \/ l = [] /\ l' = [] /\ c = EOF
  | Read e k, Block n p => p = firstn (Z.to_nat (e * k)) l /\ l' = skipn (Z.to_nat (e * k)) l /\ n = zlen p / e
  | Unget c, Num r => r = u8 c /\ l' = u8 c :: l \/ r = EOF /\ l' = l
  | _, _ => False
  end.
Inductive deliverAll : list op -> list out -> list Z -> list Z -> Prop :=
  | deliver_nil l : deliverAll [] [] l l
  | deliver_cons o os x xs l l1 l2 : delivers o x l l1 -> deliverAll os xs l1 l2 -> deliverAll (o :: os) (x :: xs) l l2.

(** ** writing, as a user sees it *)
Definition payload (o : op) : list Z := match o with Putc c => [c] | Write m _ _ => m | _ => [] end.
Definition done (o : op) (x : out) : Prop :=
  match o, x with
  | Putc c, Num r => r = c
  | Write _ _ k, Num r => r = k
  | Flush, Num r => r = 0
  | _, _ => False
  end.

(** ** seeking *)
Definition target (offset whence : Z) (i : stream) : Z :=
  offset + (if whence =? SEEK_SET then 0 else if whence =? SEEK_CUR then position i else zlen (content i)).
