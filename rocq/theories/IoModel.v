(** Text that enters and leaves the VM: encode_to_bytes and decode_str (rlib/string_stream.py
    4-35, under Python 3), std_print and its like (som/vm/universe.py 487-500), the output
    primitives and loadFile: (som/primitives/system_primitives.py 38-55, 72-85), halt
    (object_primitives.py 50-53), readall_from_stream (rlib/streamio.py 11-28), raw_input
    (rlib/osext.py 25-39). *)
From Coq Require Import NArith Bool List Lia.
From Verif Require Import Base.
Import ListNotations.
Open Scope N_scope.
Open Scope list_scope.

(** A character is its code point, a Python str a list of them; bytes are numbers. *)
Definition char_ := N.
Definition ustr := list char_.
Definition bytes := list N.

(** * UTF-8 as Python's strict codec does it *)
(** str.encode("utf-8") of a character (string_stream.py 24); surrogates are refused. *)
Definition surrogate (c : char_) : bool := (55296 <=? c) && (c <? 57344).
Definition encode_char (c : char_) : res bytes :=
  if c <? 128 then Ok [c]
  else if c <? 2048 then Ok [192 + c / 64; 128 + c mod 64]
  else if surrogate c then Err ValueError (* UnicodeEncodeError *)
  else if c <? 65536 then Ok [224 + c / 4096; 128 + c / 64 mod 64; 128 + c mod 64]
  else Ok [240 + c / 262144; 128 + c / 4096 mod 64; 128 + c / 64 mod 64; 128 + c mod 64].
(** encode_to_bytes (string_stream.py 23-24) *)
Fixpoint encode_to_bytes (t : ustr) : res bytes :=
  match t with
  | [] => Ok []
  | c :: t => b <- encode_char c ;; r <- encode_to_bytes t ;; Ok (b ++ r)
  end.
(** bytes.decode("utf-8") (string_stream.py 27): bytes that go on a character. *)
Definition cont (b : N) : bool := (128 <=? b) && (b <? 192).
(** The first character of some bytes, and the bytes after it (string_stream.py 27). *)
Definition decode_char (bs : bytes) : res (char_ * bytes) :=
  match bs with
  | [] => Err ValueError
  | a :: r =>
      if a <? 128 then Ok (a, r)
      else if (194 <=? a) && (a <? 224) then
        match r with
        | b :: r => if cont b then Ok ((a - 192) * 64 + (b - 128), r) else Err ValueError
        | _ => Err ValueError
        end
      else if (224 <=? a) && (a <? 240) then
        match r with
        | b :: c :: r =>
            if cont b && cont c && (if a =? 224 then 160 <=? b else true) && (if a =? 237 then b <? 160 else true)
            then Ok ((a - 224) * 4096 + (b - 128) * 64 + (c - 128), r) else Err ValueError
        | _ => Err ValueError
        end
      else if (240 <=? a) && (a <? 245) then
        match r with
        | b :: c :: d :: r =>
            if cont b && cont c && cont d && (if a =? 240 then 144 <=? b else true) && (if a =? 244 then b <? 144 else true)
            then Ok ((a - 240) * 262144 + (b - 128) * 4096 + (c - 128) * 64 + (d - 128), r) else Err ValueError
        | _ => Err ValueError
        end
      else Err ValueError
  end.
(** decode_str (string_stream.py 26-27); UnicodeDecodeError is a ValueError. *)
Fixpoint decode_bytes (fuel : nat) (bs : bytes) : res ustr :=
  match bs, fuel with
  | [], _ => Ok []
  | _, O => Err OutOfFuel
  | _, S fuel => p <- decode_char bs ;; t <- decode_bytes fuel (snd p) ;; Ok (fst p :: t)
  end.
Definition decode_str (bs : bytes) : res ustr := decode_bytes (length bs) bs.

(** * Output *)
(** The two descriptors written to in universe.py 487-500, and what Python's own print has buffered for the first one. *)
Record outs := Outs { fd1 : bytes; fd2 : bytes; buffered : bytes }.
(** os.write (universe.py 488, 492, 496, 500): the system takes a number of the bytes (the code ignores how many), or fails. *)
Inductive system_ := Takes (n : nat) | Fails.
Definition os_write (one : bool) (bs : bytes) (sys : system_) (o : outs) : res unit * outs :=
  match sys with
  | Fails => (Err PyException, o)
  | Takes n =>
      let bs := firstn n bs in
      (Ok tt, if one then Outs (fd1 o ++ bs) (fd2 o) (buffered o) else Outs (fd1 o) (fd2 o ++ bs) (buffered o))
  end.
(** The "\n" of universe.py 492, 500 *)
Definition new_line : ustr := [10].
(** error_print, std_print, error_println, std_println (universe.py 487-500) *)
Definition write_text (one : bool) (t : ustr) (sys : system_) (o : outs) : res unit * outs :=
  match encode_to_bytes t with Ok bs => os_write one bs sys o | Err e => (Err e, o) end.
(** print() of Python (object_primitives.py 52): into the buffer of sys.stdout, which is emptied at a newline if the
    output is a terminal.  Simplification: a buffer that is no terminal's never gets full. *)
Definition python_print (tty : bool) (bs : bytes) (o : outs) : outs :=
  if tty then Outs (fd1 o ++ buffered o ++ bs) (fd2 o) [] else Outs (fd1 o) (fd2 o) (buffered o ++ bs).
(** At the end of the process (main.py 9-16) sys.stdout is flushed. *)
Definition at_exit (o : outs) : outs := Outs (fd1 o ++ buffered o) (fd2 o) [].

(** The primitives of system_primitives.py 38-55 and object_primitives.py 50-53; the argument is a String (string.py 11-12), or another object, which has no
    get_embedded_string. *)
Inductive arg := AStr (t : ustr) | AOther.
Definition get_embedded_string (a : arg) : res ustr := match a with AStr t => Ok t | AOther => Err AttributeError end.
Inductive act := PrintString (a : arg) | PrintNewline | ErrorPrint (a : arg) | ErrorPrintln (a : arg) | Halt.
Definition with_text (a : arg) (f : ustr -> outs -> res unit * outs) (o : outs) : res unit * outs :=
  match get_embedded_string a with Ok t => f t o | Err e => (Err e, o) end.
(** _print_string, _print_newline, _error_print, _error_println (system_primitives.py 38-55),
    _halt (object_primitives.py 50-53); each answers the receiver. *)
Definition breakpoint : bytes := [66; 82; 69; 65; 75; 80; 79; 73; 78; 84; 10].
Definition do_act (tty : bool) (x : act) (sys : system_) (o : outs) : res unit * outs :=
  match x with
  | PrintString a => with_text a (fun t => write_text true t sys) o
  | PrintNewline => write_text true new_line sys o
  | ErrorPrint a => with_text a (fun t => write_text false t sys) o
  | ErrorPrintln a => with_text a (fun t => write_text false (t ++ new_line) sys) o
  | Halt => (Ok tt, python_print tty breakpoint o)
  end.
(** A history of outputs of the primitives (system_primitives.py 38-55); the first exception ends it. *)
Fixpoint do_acts (tty : bool) (xs : list (act * system_)) (o : outs) : res unit * outs :=
  match xs with
  | [] => (Ok tt, o)
  | (x, sys) :: xs => match do_act tty x sys o with (Ok _, o) => do_acts tty xs o | (Err e, o) => (Err e, o) end
  end.

(** * Reading a file *)
(** open(name, "r") (streamio.py 6-7) under Python 3: text, with every way to end a line read
    as a newline.  Simplification: the encoding is taken to be UTF-8. *)
Fixpoint universal_newlines (t : ustr) : ustr :=
  match t with
  | [] => []
  | c :: r => if c =? 13 then
                10 :: match r with
                      | d :: r' => if d =? 10 then universal_newlines r' else universal_newlines r
                      | [] => []
                      end
              else c :: universal_newlines r
  end.
(** What stream.read (streamio.py 16) comes to: some text, an OSError, or a UnicodeDecodeError.
    A read asks for at most so many characters; the rest is for the next one.  At the end of
    the list, and at an empty text, the file has come to its end. *)
Inductive event := Text (t : ustr) | Broken | Undecodable.
Definition read (size : N) (es : list event) : res ustr * list event :=
  match es with
  | [] => (Ok [], [])
  | Text t :: es => if N.of_nat (length t) <=? size then (Ok t, es)
                    else (Ok (firstn (N.to_nat size) t), Text (skipn (N.to_nat size) t) :: es)
  | Broken :: es => (Err PyException, es)       (* OSError *)
  | Undecodable :: es => (Err ValueError, es)
  end.
(** readall_from_stream (streamio.py 11-28) *)
Fixpoint readall (fuel : nat) (bufsize : N) (result : list ustr) (es : list event) : res ustr :=
  match fuel with
  | O => Err OutOfFuel
  | S fuel =>
      match read bufsize es with
      | (Err PyException, _) => match result with [] => Err PyException | _ => Ok (concat result) end
      | (Err e, _) => Err e
      | (Ok [], _) => Ok (concat result)
      | (Ok data, es) =>
          readall fuel (if bufsize <? 4194304 then N.shiftl bufsize 1 else bufsize) (result ++ [data]) es
      end
  end.
Definition readall_from_stream (fuel : nat) (es : list event) : res ustr := readall fuel 8192 [] es.
(** The file of open_file_as_stream (streamio.py 6-7): it cannot be opened, or its reads are given, and whether closing it works. *)
Inductive file := NoFile | File (es : list event) (closes : bool).
(** What loadFile: (system_primitives.py 72-85) answers: a String or nil.  [opened], [closed]: how often a file was. *)
Inductive answer := AString (t : ustr) | ANil.
Record loaded := Loaded { l_result : res answer; l_opened : nat; l_closed : nat }.
(** _load_file (system_primitives.py 72-85): close() is called in the finally; an OSError of
    it takes the place of the result. *)
Definition caught (r : res answer) : res answer :=
  match r with Err PyException => Ok ANil | r => r end.
Definition load_file (fuel : nat) (open_ : ustr -> file) (a : arg) : loaded :=
  match get_embedded_string a with
  | Err e => Loaded (caught (Err e)) 0 0
  | Ok name =>
      match open_ name with
      | NoFile => Loaded (caught (Err PyException)) 0 0
      | File es closes =>
          let body := match readall_from_stream fuel es with Ok t => Ok (AString t) | Err e => Err e end in
          Loaded (caught (if closes then body else Err PyException)) 1 1
      end
  end.

(** * Reading a line of the shell *)
(** _read_raw and raw_input (osext.py 25-39), with decode_str; [chunks] are the results of
    os.read(0, 32), and there are no more after the last. *)
Fixpoint raw_input_str (answer : ustr) (chunks : list bytes) : res ustr * list bytes :=
  match chunks with
  | [] => (Ok answer, [])
  | buf :: t =>
      match buf with
      | [] => (Ok answer, t)
      | _ =>
          if last buf 0 =? 10 then
            match decode_str (removelast buf) with Ok u => (Ok (answer ++ u), t) | Err e => (Err e, t) end
          else
            match decode_str buf with Ok u => raw_input_str (answer ++ u) t | Err e => (Err e, t) end
      end
  end.

(** How Python makes a str of a command-line argument (sys.argv, main.py 7): UTF-8, and a byte that is
    not part of a character becomes the surrogate 0xDC00 + byte. *)
Fixpoint fs_decode (fuel : nat) (bs : bytes) : ustr :=
  match bs, fuel with
  | [], _ | _, O => []
  | a :: r, S fuel =>
      match decode_char bs with
      | Ok (c, r) => c :: fs_decode fuel r
      | Err _ => (56320 + a) :: fs_decode fuel r
      end
  end.
Definition argument (bs : bytes) : ustr := fs_decode (length bs) bs.
