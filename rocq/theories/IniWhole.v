(** * IniWhole: whole programs (syntax: [WholeSpec.v]) on objects whose memory may not have been written yet.

    As [WholeModel.v], each instruction one call of the cell models.  Line numbers are in
    /repo/include/AesiMultiprecision/Aeu.h and Aesi.h. *)
From Verif Require Export IniProgModel IniText IniBin WholeModel IniWholeSpec.
Open Scope Z_scope.

(** no code: the state of the calling program *)
Record cwmem := mk_cwmem {
  cwu : Z -> cmem;               (* Aeu objects by width *)
  cws : Z -> csmem;              (* Aesi objects by width *)
  cwinput : list (list Z);
  cwos : ostream;
  cwfile : list Z }.
(** no code: the objects of one width get new contents *)
Definition put_cu (m : cwmem) (n : Z) (x : cmem) : cwmem :=
  mk_cwmem (fun k => if k =? n then x else cwu m k) (cws m) (cwinput m) (cwos m) (cwfile m).
(** no code: likewise *)
Definition put_cs (m : cwmem) (n : Z) (x : csmem) : cwmem :=
  mk_cwmem (cwu m) (fun k => if k =? n then x else cws m k) (cwinput m) (cwos m) (cwfile m).
(** Aeu.h l.158: assignment of a returned object to a variable *)
Definition cw_assign_u (m : cwmem) (n : Z) (d : nat) (call : outcome cells) : outcome cwmem :=
  x <- c_store (cwu m n) d call ;; Ok (put_cu m n x).
(** Aesi.h l.186: assignment of a returned object to a variable *)
Definition cw_assign_s (m : cwmem) (n : Z) (d : nat) (call : outcome caesi) : outcome cwmem :=
  x <- cs_store (cws m n) d call ;; Ok (put_cs m n x).
(** no code: the stream after an insertion *)
Definition put_cos (m : cwmem) (os : ostream) : cwmem := mk_cwmem (cwu m) (cws m) (cwinput m) os (cwfile m).
(** no code: the file after an access *)
Definition put_cfile (m : cwmem) (f : list Z) : cwmem := mk_cwmem (cwu m) (cws m) (cwinput m) (cwos m) f.
(** no code: the next text has been read *)
Definition put_cinput (m : cwmem) (l : list (list Z)) : cwmem := mk_cwmem (cwu m) (cws m) l (cwos m) (cwfile m).

(** One instruction; calls as in [wexec].  The characters of a std::string are all written. *)
Definition cwexec (cfg : config) (le wide : bool) (alnum : Z -> bool) (m : cwmem) (i : winstr) : outcome cwmem :=
  match i with
  | WU n i => x <- cexec cfg n (cwu m n) i ;; Ok (put_cu m n x)
  | WS n i => x <- csexec cfg n (cws m n) i ;; Ok (put_cs m n x)
  | WCast n s k d => cw_assign_u m k d (c_precisionCast cfg n k (cwu m n s))               (* Aeu.h l.1489 *)
  | WSCast n s k d => cw_assign_s m k d (cs_precisionCast cfg n k (cws m n s))             (* Aesi.h l.1025 *)
  | WSigned n s d => cw_assign_s m n d (cs_from_aeu (cwu m n s))                           (* Aesi.h l.151 *)
  | WUnsigned n s d => cw_assign_u m n d (cs_unsignedCast (cws m n s))                     (* Aesi.h l.1047 *)
  | WTrunc n s t k d => v <- c_integralCast t (cwu m n s) ;; cw_assign_u m k d (c_from_unsigned k v)   (* Aeu.h l.1475 *)
  | WSTrunc n s t k d => v <- cs_integralCast t (cws m n s) ;; cw_assign_s m k d (cs_from_int k t v)   (* Aesi.h l.1007 *)
  | WPowm n d b k p q => cw_assign_u m n d (c_powm_x cfg n k (cwu m n b) (cwu m k p) (cwu m n q))      (* Aeu.h l.1201 *)
  | WRead n d =>                                                                           (* Aeu.h l.247 *)
      match cwinput m with
      | t :: rest => cw_assign_u (put_cinput m rest) n d (c_from_chars n wide alnum (init t) (len t))
      | [] => Ok m
      end
  | WSRead n d =>                                                                          (* Aesi.h l.141 *)
      match cwinput m with
      | t :: rest => cw_assign_s (put_cinput m rest) n d (cs_from_chars n wide alnum (init t) (len t))
      | [] => Ok m
      end
  | WBase b => Ok (put_cos m (os_setbase (cwos m) b))
  | WPrint n s => os <- c_stream_insert cfg n (cwos m) (cwu m n s) ;; Ok (put_cos m os)    (* Aeu.h l.1378 *)
  | WSPrint n s => os <- cs_stream_insert cfg n (cwos m) (cws m n s) ;; Ok (put_cos m os)  (* Aesi.h l.1119 *)
  | WText t => Ok (put_cos m (os_put (cwos m) t))
  | WSave be n s =>                                                                        (* Aeu.h l.1456 *)
      o <- c_writeBinary le n (cwu m n s) (mk_bos (cwfile m) None true) be ;; Ok (put_cfile m (obytes o))
  | WLoad be n d =>                                                                        (* Aeu.h l.1437: in place *)
      '(x, i) <- c_readBinary le n (cwu m n d) (mk_is (cwfile m) true) be ;;
      Ok (put_cu (put_cfile m (ibytes i)) n (cput (cwu m n) d x))
  end.
(** comparisons: as in [wtest] *)
Definition cwtest (cfg : config) (m : cwmem) (c : wcond) : outcome bool :=
  match c with
  | WUc n c => ctest cfg n (cwu m n) c
  | WSc n c => cstest cfg n (cws m n) c
  | WEq n a k b => c_op_eq cfg n k (cwu m n a) (cwu m k b)
  | WLt n a k b => c_op_lt cfg n k (cwu m n a) (cwu m k b)
  | WSEq n a k b => cs_eq_x cfg n k (cws m n a) (cws m k b)
  | WSLt n a k b => cs_lt_x cfg n k (cws m n a) (cws m k b)
  | WMore => Ok (match cwinput m with [] => false | _ => true end)
  end.
(** no code: the program *)
Definition cwrun (cfg : config) (le wide : bool) (alnum : Z -> bool) := run (cwexec cfg le wide alnum) (cwtest cfg).
