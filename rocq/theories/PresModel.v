(** * PresModel: the tests of /repo/ci/integration/presentation.cpp, with their literals and widths as parameters.

    Test Factorial (l.7-13) is [UseModel.readme_main] (nothing is checked there).  [alnum] is std::isalnum. *)
From Verif Require Export UseModel.
Open Scope Z_scope.

(** [os << std::endl]: put('\n'), which is unformatted, and flush *)
(** presentation.cpp l.24, 29, 49, 53 *)
Definition os_endl (os : ostream) : ostream :=
  mk_os (out os ++ [10]) (basef os) (showbase os) (uppercase os) (fillc os) (width os) (adj os).
(** [std::stringstream cout {}] *)
(** presentation.cpp l.16, 41 *)
Definition stringstream : ostream := mk_os [] BDec false false 32 0 AdjNone.

(** l.15-31: block counts nb, np, nm of base, power, mod, and na, nc of m128, m192 *)
Definition pres_cast (cfg : config) (alnum : Z -> bool) (nb np nm na nc : Z) (base power modulo m128 m192 : list Z) : outcome (list Z) :=
  base <- from_literal nb false alnum base ;;                                                    (* l.20 *)
  power <- from_literal np false alnum power ;;                                                  (* l.21 *)
  modulo <- from_literal nm false alnum modulo ;;                                                (* l.22 *)
  r <- readme_powm cfg nb np nm base power modulo ;;                                             (* l.24 *)
  os <- stream_insert cfg nm stringstream r ;;
  let os := os_endl os in
  m128 <- from_literal na false alnum m128 ;;                                                    (* l.26 *)
  m192 <- from_literal nc false alnum m192 ;;                                                    (* l.27 *)
  w <- precisionCast cfg na nc m128 ;;                                                           (* l.29 *)
  x <- op_mul nc w m192 ;;
  os <- stream_insert cfg nc os x ;;
  Ok (out (os_endl os)).

(** l.40-54: block counts n of the literals, m of the wide power *)
Definition pres_cast2 (cfg : config) (alnum : Z -> bool) (n m : Z) (base power modulo : list Z) : outcome (list Z) :=
  base <- from_literal n false alnum base ;;                                                     (* l.45-47 *)
  power <- from_literal n false alnum power ;;
  modulo <- from_literal n false alnum modulo ;;
  r <- powm cfg n base power modulo ;;                                                           (* l.49 *)
  os <- stream_insert cfg n stringstream r ;;
  let os := os_endl os in
  r <- readme_powm2 cfg n m base power modulo ;;                                                 (* l.51-53 *)
  os <- stream_insert cfg m os r ;;
  Ok (out (os_endl os)).

(** l.34-37, l.56-59: [std::regex_search(s, sm, re)], [!sm.empty()], for an expression without metacharacters [w = false],
    and for the word ["\\w+\n"] followed by such an expression [w = true] (ECMAScript grammar, std::regex contract). *)
Definition word_char (c : Z) : bool := ((48 <=? c) && (c <=? 57)) || ((65 <=? c) && (c <=? 90)) || (c =? 95) || ((97 <=? c) && (c <=? 122)).
(** presentation.cpp l.37, 59 *)
Fixpoint starts (p s : list Z) : bool :=
  match p, s with [], _ => true | x :: p, y :: s => (x =? y) && starts p s | _ :: _, [] => false end.
(** presentation.cpp l.34-37 *)
Fixpoint search (p s : list Z) : bool :=
  starts p s || match s with [] => false | _ :: s => search p s end.
(** one word character, any number of further ones, then [p] *)
(** presentation.cpp l.57 *)
Fixpoint word_then (p s : list Z) : bool :=
  match s with [] => false | c :: s => word_char c && (starts p s || word_then p s) end.
(** presentation.cpp l.56-59 *)
Fixpoint search_word (p s : list Z) : bool :=
  word_then p s || match s with [] => false | _ :: s => search_word p s end.
