(** * TestModel4: the tests on fixed literals, with the literals generalised: initialization.cpp Basic (l.33-86, 154-205)
    and display.cpp Zero (l.24-78, 451-505).
    init = test/operations/initialization/initialization.cpp, display = test/operations/display/display.cpp. *)
From Verif Require Export TestModel3.
Open Scope Z_scope.

(** init l.57-85: [Aeu512 d = text; EXPECT_EQ(d, w)] with a std::string, std::string_view or their wide forms and an
    unsigned long [w] *)
Definition textTrial (n : Z) (wide : bool) (alnum : Z -> bool) (text : list Z) (w : Z) : outcome bool :=
  a <- from_string n wide alnum text ;; op_eq_u64 n a w.
(** init l.35-55: [Aeu128 d = "..."; EXPECT_EQ(d, w)] with an unsigned int [w] *)
Definition literalTrial (n : Z) (wide : bool) (alnum : Z -> bool) (text : list Z) (w : Z) : outcome bool :=
  a <- from_literal n wide alnum text ;; op_eq_u32 n a w.
(** init l.175-202 *)
Definition s_textTrial (n : Z) (wide : bool) (alnum : Z -> bool) (text : list Z) (w : Z) : outcome bool :=
  a <- s_from_string n wide alnum text ;; s_eq_int n a w.
(** init l.155-173 *)
Definition s_literalTrial (n : Z) (wide : bool) (alnum : Z -> bool) (text : list Z) (w : Z) : outcome bool :=
  a <- s_from_literal n wide alnum text ;; s_eq_int n a w.

(** display l.27-30: [ss << b << m << +m; EXPECT_EQ(ss.str(), "00")] with [m = 0u] *)
Definition zeroStreams (cfg : config) (n : Z) (junk : list Z) (b : basefield) : outcome bool :=
  m <- from_unsigned n junk 0 ;; p <- op_plus m ;;
  ss <- stream_insert cfg n (fresh_with [] b false false) m ;; ss <- stream_insert cfg n ss p ;;
  Ok (text_eq (out ss) [48; 48]).
(** display l.31, 8u generalised to [k]: [m = k; ss << m - k << +(m - k); m -= k; ss << m; EXPECT_EQ(ss.str(), "000")] *)
Definition zeroDifference (cfg : config) (n : Z) (junk : list Z) (k : Z) : outcome bool :=
  m <- from_unsigned n junk k ;;
  k1 <- from_unsigned n junk k ;; d1 <- op_sub n m k1 ;; ss <- stream_insert cfg n (fresh_with [] BDec false false) d1 ;;
  k2 <- from_unsigned n junk k ;; d2 <- op_sub n m k2 ;; d3 <- op_plus d2 ;; ss <- stream_insert cfg n ss d3 ;;
  k3 <- from_unsigned n junk k ;; m <- sub_assign n m k3 ;; ss <- stream_insert cfg n ss m ;;
  Ok (text_eq (out ss) [48; 48; 48]).
(** display l.33-77: [std::array<Char, size> s {}; m.getString<base>(s.data(), size, show); EXPECT_EQ(view(s.data()), text)] *)
Definition zeroBuffer (cfg : config) (n : Z) (junk : list Z) (wide upper : bool) (wfail : list Z -> Z -> list Z) (base size : Z) (show : bool) : outcome bool :=
  m <- from_unsigned n junk 0 ;;
  '(s, _) <- getString cfg n wide upper wfail base m (zeros size) size show ;;
  v <- string_view s ;;
  Ok (text_eq v ((if show then literal_prefix base else []) ++ [48])).
(** display l.454-457 *)
Definition s_zeroStreams (cfg : config) (n : Z) (b : basefield) : outcome bool :=
  m <- s_from_int n uint32 0 ;; p <- s_plus m ;;
  ss <- s_stream_insert cfg n (fresh_with [] b false false) m ;; ss <- s_stream_insert cfg n ss p ;;
  Ok (text_eq (out ss) [48; 48]).
(** display l.458 *)
Definition s_zeroDifference (cfg : config) (n k : Z) : outcome bool :=
  m <- s_from_int n uint32 k ;;
  k1 <- s_from_int n uint32 k ;; d1 <- s_sub cfg n m k1 ;; ss <- s_stream_insert cfg n (fresh_with [] BDec false false) d1 ;;
  k2 <- s_from_int n uint32 k ;; d2 <- s_sub cfg n m k2 ;; d3 <- s_plus d2 ;; ss <- s_stream_insert cfg n ss d3 ;;
  k3 <- s_from_int n uint32 k ;; m <- s_sub_assign cfg n m k3 ;; ss <- s_stream_insert cfg n ss m ;;
  Ok (text_eq (out ss) [48; 48; 48]).
(** display l.460-504 *)
Definition s_zeroBuffer (cfg : config) (n : Z) (wide upper : bool) (wfail : list Z -> Z -> list Z) (base size : Z) (show : bool) : outcome bool :=
  m <- s_from_int n uint32 0 ;;
  '(s, _) <- s_getString cfg n wide upper wfail base m (zeros size) size show ;;
  v <- string_view s ;;
  Ok (text_eq v ((if show then literal_prefix base else []) ++ [48])).
