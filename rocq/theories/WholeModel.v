(** * WholeModel: programs that use both classes at several widths, texts, a stream and a binary file.

    The calls are those of the other models; line numbers are in /repo/include/AesiMultiprecision/Aeu.h and Aesi.h.
    The program's variables are stored by width, so that one store holds objects of one type.  The binary file is a
    [std::stringstream]: writing appends, reading takes from the front; both ends stay good. *)
From Verif Require Export ProgModel TextModel BinModel WholeSpec.
Open Scope Z_scope.

(** no code: the state of the calling program *)
Record wmem := mk_wmem {
  mu : Z -> mem;                 (* Aeu objects by width *)
  ms : Z -> smem;                (* Aesi objects by width *)
  minput : list (list Z);
  mos : ostream;
  mfile : list Z }.

(** no code: the store of one width gets new contents *)
Definition put_mu (m : wmem) (n : Z) (x : mem) : wmem :=
  mk_wmem (fun k => if k =? n then x else mu m k) (ms m) (minput m) (mos m) (mfile m).
(** no code: likewise *)
Definition put_ms (m : wmem) (n : Z) (x : smem) : wmem :=
  mk_wmem (mu m) (fun k => if k =? n then x else ms m k) (minput m) (mos m) (mfile m).
(** Aeu.h l.158: assignment to a variable *)
Definition assign_u (m : wmem) (n : Z) (d : nat) (x : list Z) : wmem := put_mu m n (mput (mu m n) (Var d) x).
(** Aesi.h l.186: assignment to a variable *)
Definition assign_s (m : wmem) (n : Z) (d : nat) (x : aesi) : wmem := put_ms m n (sput (ms m n) (Var d) x).
(** no code: the stream after an insertion *)
Definition put_os (m : wmem) (os : ostream) : wmem := mk_wmem (mu m) (ms m) (minput m) os (mfile m).
(** no code: the file after an access *)
Definition put_file (m : wmem) (f : list Z) : wmem := mk_wmem (mu m) (ms m) (minput m) (mos m) f.
(** no code: the next text has been read *)
Definition put_input (m : wmem) (l : list (list Z)) : wmem := mk_wmem (mu m) (ms m) l (mos m) (mfile m).
(** standard library: std::hex, std::oct, std::dec *)
Definition os_setbase (os : ostream) (b : basefield) : ostream :=
  mk_os (out os) b (showbase os) (uppercase os) (fillc os) (width os) (adj os).

(** One instruction.  [le]: byte order of the host; [wide], [alnum]: character type and locale of the texts.
    Calls: [uexec]/[sexec] as in ProgModel.v; precisionCast Aeu.h l.1489, Aesi.h l.1025; Aesi(Aeu) Aesi.h l.151;
    unsignedCast Aesi.h l.1047; integralCast Aeu.h l.1475, Aesi.h l.1007; powm Aeu.h l.1201; string constructors
    Aeu.h l.247, Aesi.h l.141; operator<< Aeu.h l.1378, Aesi.h l.1119; writeBinary, readBinary Aeu.h l.1437-1466. *)
Definition wexec (cfg : config) (le wide : bool) (alnum : Z -> bool) (m : wmem) (i : winstr) : outcome wmem :=
  match i with
  | WU n i => x <- uexec cfg n (mu m n) i ;; Ok (put_mu m n x)
  | WS n i => x <- sexec cfg n (ms m n) i ;; Ok (put_ms m n x)
  | WCast n s k d => x <- precisionCast cfg n k (mu m n (Var s)) ;; Ok (assign_u m k d x)
  | WSCast n s k d => x <- s_precisionCast cfg n k (ms m n (Var s)) ;; Ok (assign_s m k d x)
  | WSigned n s d => Ok (assign_s m n d (s_from_aeu (mu m n (Var s))))
  | WUnsigned n s d => Ok (assign_u m n d (s_unsignedCast (ms m n (Var s))))
  | WTrunc n s t k d => v <- integralCast t (mu m n (Var s)) ;; x <- from_unsigned k (zeros k) v ;; Ok (assign_u m k d x)
  | WSTrunc n s t k d => v <- s_integralCast t (ms m n (Var s)) ;; x <- s_from_int k t v ;; Ok (assign_s m k d x)
  | WPowm n d b k p q => x <- powm_x cfg n k (mu m n (Var b)) (mu m k (Var p)) (mu m n (Var q)) ;; Ok (assign_u m n d x)
  | WRead n d =>
      match minput m with
      | t :: rest => x <- from_string n wide alnum t ;; Ok (assign_u (put_input m rest) n d x)
      | [] => Ok m                        (* the program has no more text: nothing is called *)
      end
  | WSRead n d =>
      match minput m with
      | t :: rest => x <- s_from_string n wide alnum t ;; Ok (assign_s (put_input m rest) n d x)
      | [] => Ok m
      end
  | WBase b => Ok (put_os m (os_setbase (mos m) b))
  | WPrint n s => os <- stream_insert cfg n (mos m) (mu m n (Var s)) ;; Ok (put_os m os)
  | WSPrint n s => os <- s_stream_insert cfg n (mos m) (ms m n (Var s)) ;; Ok (put_os m os)
  | WText t => Ok (put_os m (os_put (mos m) t))
  | WSave be n s => o <- writeBinary le n (mu m n (Var s)) (mk_bos (mfile m) None true) be ;; Ok (put_file m (obytes o))
  | WLoad be n d => '(x, i) <- readBinary le n (mk_is (mfile m) true) be ;; Ok (assign_u (put_file m (ibytes i)) n d x)
  end.
(** comparisons across widths: Aeu.h l.741-743, l.850-862, Aesi.h l.619-625, l.754-766 *)
Definition wtest (cfg : config) (m : wmem) (c : wcond) : outcome bool :=
  match c with
  | WUc n c => utest cfg n (mu m n) c
  | WSc n c => stest cfg n (ms m n) c
  | WEq n a k b => op_eq cfg n k (mu m n (Var a)) (mu m k (Var b))
  | WLt n a k b => op_lt cfg n k (mu m n (Var a)) (mu m k (Var b))
  | WSEq n a k b => s_eq cfg n k (ms m n (Var a)) (ms m k (Var b))
  | WSLt n a k b => s_lt cfg n k (ms m n (Var a)) (ms m k (Var b))
  | WMore => Ok (match minput m with [] => false | _ => true end)
  end.
(** no code: the program *)
Definition wrun (cfg : config) (le wide : bool) (alnum : Z -> bool) := run (wexec cfg le wide alnum) (wtest cfg).
