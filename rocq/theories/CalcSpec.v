(** What the calculator of example/calculator.c should do: expressions in
    postfix notation, their values, and sessions.  Refers to the functions of
    the API by name, to the C library functions strtoll and strtold, and not to
    the stack, the table of operators or the buffers of the program.
    No proofs in this file. *)
From Coq Require Import ZArith List Bool Ascii String Reals.
From Flocq Require Import IEEE754.BinarySingleNaN.
From Verif Require Import CModel FloatModel Libm Spec WidthApi LogApi LinApi Conversion Wrappers WrapApi Calculator.
Import ListNotations.
Local Open Scope Z_scope.

(** * Takums of the eight types *)
Definition kind_of (T : takum_type) : kind :=
  match T with
  | TAKUM8 | TAKUM16 | TAKUM32 | TAKUM64 => Logarithmic
  | _ => Linear
  end.
Definition width_of (T : takum_type) : Wrappers.width :=
  match T with
  | TAKUM8 | TAKUM_LINEAR8 => W8 | TAKUM16 | TAKUM_LINEAR16 => W16
  | TAKUM32 | TAKUM_LINEAR32 => W32 | TAKUM64 | TAKUM_LINEAR64 => W64
  end.
Definition bits_of (T : takum_type) : Z := bits (width_of T).

(** A number of the calculator: a takum of a type, and the integer it is known
    to be, if any. *)
Record tvalue := mk_tvalue { vtype : takum_type; vtakum : Z; vint : option Z }.

(** the conversion of the API from one type to another *)
Inductive cast_function (lm : libm) : takum_type -> takum_type -> (Z -> outcome Z) -> Prop :=
| cast_same : forall T, cast_function lm T T (fun t => Val t)
| cast_wider : forall T T' f, kind_of T' = kind_of T ->
    widening (kind_of T) (bits_of T) (bits_of T') f -> cast_function lm T T' f
| cast_narrower : forall T T' f, kind_of T' = kind_of T ->
    narrowing (kind_of T) (bits_of T) (bits_of T') f -> cast_function lm T T' f
| cast_to_linear : forall T T' f, kind_of T = Logarithmic -> kind_of T' = Linear ->
    log_to_linear lm (bits_of T) (bits_of T') f -> cast_function lm T T' f
| cast_to_log : forall T T' f, kind_of T = Linear -> kind_of T' = Logarithmic ->
    linear_to_log lm (bits_of T) (bits_of T') f -> cast_function lm T T' f.
(** v converted to the type T is x *)
Definition casts (lm : libm) (v : tvalue) (T : takum_type) (x : Z) : Prop :=
  exists f, cast_function lm (vtype v) T f /\ f (vtakum v) = Val x.

(** * Operators *)
Inductive op1 := Fun (u : unary_name) | Absolute | Inversion | SquareRoot | Sign | Precision.
Inductive op2 := Two (b : binary_name) | Power | Root.

Definition names1 : list (bytes * op1) := [
  (str "abs", Absolute); (str "arccos", Fun n_arccos); (str "arccos_over_pi", Fun n_arccos_over_pi);
  (str "arccot", Fun n_arccot); (str "arccot_over_pi", Fun n_arccot_over_pi);
  (str "arccsc", Fun n_arccsc); (str "arccsc_over_pi", Fun n_arccsc_over_pi);
  (str "arcosh", Fun n_arcosh); (str "arcoth", Fun n_arcoth); (str "arcsch", Fun n_arcsch);
  (str "arcsec", Fun n_arcsec); (str "arcsec_over_pi", Fun n_arcsec_over_pi);
  (str "arcsin", Fun n_arcsin); (str "arcsin_over_pi", Fun n_arcsin_over_pi);
  (str "arctan", Fun n_arctan); (str "arctan_over_pi", Fun n_arctan_over_pi);
  (str "arsech", Fun n_arsech); (str "arsinh", Fun n_arsinh); (str "artanh", Fun n_artanh);
  (str "cos", Fun n_cos); (str "cos_pi_times", Fun n_cos_pi_times); (str "cosh", Fun n_cosh);
  (str "cot", Fun n_cot); (str "cot_pi_times", Fun n_cot_pi_times); (str "coth", Fun n_coth);
  (str "csc", Fun n_csc); (str "csc_pi_times", Fun n_csc_pi_times); (str "csch", Fun n_csch);
  (str "exp", Fun n_exp); (str "exp_minus_1", Fun n_exp_minus_1);
  (str "inv", Inversion);
  (str "lb", Fun n_lb); (str "lb_1_plus", Fun n_lb_1_plus);
  (str "lg", Fun n_lg); (str "lg_1_plus", Fun n_lg_1_plus);
  (str "ln", Fun n_ln); (str "ln_1_plus", Fun n_ln_1_plus);
  (str "precision", Precision);
  (str "sec", Fun n_sec); (str "sec_pi_times", Fun n_sec_pi_times); (str "sech", Fun n_sech);
  (str "sign", Sign);
  (str "sin", Fun n_sin); (str "sin_pi_times", Fun n_sin_pi_times); (str "sinh", Fun n_sinh);
  (str "sqrt", SquareRoot);
  (str "tan", Fun n_tan); (str "tan_pi_times", Fun n_tan_pi_times); (str "tanh", Fun n_tanh)].
Definition names2 : list (bytes * op2) := [
  (str "+", Two n_addition); (str "-", Two n_subtraction); (str "*", Two n_multiplication);
  (str "/", Two n_division); (str "^", Power); (str "arctan2", Two n_arctan2);
  (str "arctan2_over_pi", Two n_arctan2_over_pi); (str "hypotenuse", Two n_hypotenuse);
  (str "root", Root)].
Definition types : list (bytes * takum_type) := [
  (str "takum8", TAKUM8); (str "takum16", TAKUM16); (str "takum32", TAKUM32); (str "takum64", TAKUM64);
  (str "takum_linear8", TAKUM_LINEAR8); (str "takum_linear16", TAKUM_LINEAR16);
  (str "takum_linear32", TAKUM_LINEAR32); (str "takum_linear64", TAKUM_LINEAR64)].
(** the words that are not numbers, apart from the registers *)
Definition reserved : list bytes :=
  str "?" :: map fst names1 ++ map fst names2 ++ map fst types.

(** registers are named by one lower case letter *)
Definition letter (i : nat) : bytes := [ascii_of_nat (97 + i)].
Definition is_letter (token : bytes) : Prop := exists i, (i < 26)%nat /\ token = letter i.

(** the function of the API an operator stands for, at type T *)
Inductive op1_function (lm : libm) (T : takum_type) : op1 -> (Z -> outcome Z) -> Prop :=
| op_fun : forall u, op1_function lm T (Fun u) (api_unary (kind_of T) lm u (width_of T))
| op_abs : forall f, absolute_value (kind_of T) (bits_of T) f -> op1_function lm T Absolute f
| op_inv_log : forall f, kind_of T = Logarithmic -> log_inversion (bits_of T) f -> op1_function lm T Inversion f
| op_inv_lin : forall f, kind_of T = Linear -> linear_inversion (bits_of T) f -> op1_function lm T Inversion f
| op_sqrt_log : forall f, kind_of T = Logarithmic -> log_square_root (bits_of T) f -> op1_function lm T SquareRoot f
| op_sqrt_lin : forall f, kind_of T = Linear -> linear_square_root (bits_of T) f -> op1_function lm T SquareRoot f
| op_sign : forall f, sign_function (kind_of T) (bits_of T) f -> op1_function lm T Sign f
| op_precision : forall p f, precision_function (kind_of T) (bits_of T) p ->
    from_float lm (kind_of T) (bits_of T) f80 f ->
    op1_function lm T Precision (fun t => let! i := p t in f (fint f80 i)).

(** r is the takum an operator gives for its operands *)
Definition op1_result (lm : libm) (T : takum_type) (o : op1) (a : tvalue) (r : Z) : Prop :=
  exists f x, op1_function lm T o f /\ casts lm a T x /\ f x = Val r.
(** powers with an exponent known to be an integer are integer powers, other
    ones are powers; a root must have a degree known to be an integer *)
Inductive op2_result (lm : libm) (T : takum_type) : op2 -> tvalue -> tvalue -> Z -> Prop :=
| op_two : forall o a b x y r, casts lm a T x -> casts lm b T y ->
    api_binary (kind_of T) lm o (width_of T) x y = Val r -> op2_result lm T (Two o) a b r
| op_power : forall a b x y r, vint b = None -> casts lm a T x -> casts lm b T y ->
    api_binary (kind_of T) lm n_power (width_of T) x y = Val r -> op2_result lm T Power a b r
| op_integer_power : forall a b x z r, vint b = Some z -> casts lm a T x ->
    api_integer_power (kind_of T) lm (width_of T) x z = Val r -> op2_result lm T Power a b r
| op_root : forall a b x z r, vint b = Some z -> casts lm a T x ->
    api_root (kind_of T) lm (width_of T) x z = Val r -> op2_result lm T Root a b r.

(** * Results *)

(** The integers recognised: 0, 1 and -1 among logarithmic takums, all of type
    int64_t except the largest among linear ones. *)
Definition recognised (k : kind) (z : Z) : Prop :=
  match k with Logarithmic => -1 <= z <= 1 | Linear => - 2 ^ 63 <= z < 2 ^ 63 - 1 end.
Definition known_integer (k : kind) (n t : Z) (i : option Z) : Prop :=
  match i with
  | Some z => recognised k z /\ value k n t = Some (IZR z)
  | None => forall z, recognised k z -> value k n t <> Some (IZR z)
  end.
(** The program can take r as a result: if it is linear, it is a real number
    that fits int64_t when its fraction is dropped. *)
Definition acceptable (k : kind) (n r : Z) : Prop :=
  k = Linear -> exists x, value Linear n r = Some x /\ (- IZR (2 ^ 63) - 1 < x < IZR (2 ^ 63))%R.
(** v is the number for the takum r of type T *)
Definition is_result (T : takum_type) (r : Z) (v : tvalue) : Prop :=
  vtype v = T /\ vtakum v = r /\ acceptable (kind_of T) (bits_of T) r /\
  known_integer (kind_of T) (bits_of T) r (vint v).

(** * Literals *)

(** The text of a literal as a float and the integer it is known to be.
    Integers are read by strtoll, everything else by strtold. *)
Inductive reads (strtold : bytes -> flt f80 * bool) (token : bytes) : flt f80 -> option Z -> Prop :=
| reads_integer : forall z, strtoll token = (z, true) -> z < 2 ^ 63 - 1 -> reads strtold token (fint f80 z) (Some z)
| reads_too_large : strtoll token = (2 ^ 63 - 1, true) -> reads strtold token B754_nan None
| reads_float_integer : forall z x, snd (strtoll token) = false -> strtold token = (x, true) ->
    is_finite x = true -> B2R x = IZR z -> -1 <= z <= 1 -> reads strtold token x (Some z)
| reads_float : forall x, snd (strtoll token) = false -> strtold token = (x, true) ->
    (forall z, -1 <= z <= 1 -> ~ (is_finite x = true /\ B2R x = IZR z)) -> reads strtold token x None.
Definition is_literal (lm : libm) strtold (T : takum_type) (token : bytes) (v : tvalue) : Prop :=
  ~ In token reserved /\ ~ is_letter token /\ vtype v = T /\
  exists f x, from_float lm (kind_of T) (bits_of T) f80 f /\ reads strtold token x (vint v) /\ f x = Val (vtakum v).

(** * Expressions *)
Inductive expr :=
| Literal (token : bytes)
| Register (i : nat)
| Apply1 (name : bytes) (a : expr)
| Apply2 (name : bytes) (a b : expr).

(** reverse polish notation *)
Fixpoint postfix (e : expr) : list bytes :=
  match e with
  | Literal token => [token]
  | Register i => [letter i]
  | Apply1 name a => postfix a ++ [name]
  | Apply2 name a b => postfix a ++ postfix b ++ [name]
  end.

(** the value of an expression, where all operators have type T and the
    registers hold the given numbers *)
Inductive evaluates (lm : libm) strtold (T : takum_type) (registers : list tvalue) : expr -> tvalue -> Prop :=
| ev_literal : forall token v, is_literal lm strtold T token v ->
    evaluates lm strtold T registers (Literal token) v
| ev_register : forall i v, (i < 26)%nat -> nth_error registers i = Some v ->
    evaluates lm strtold T registers (Register i) v
| ev_apply1 : forall name o a v r w, In (name, o) names1 -> evaluates lm strtold T registers a v ->
    op1_result lm T o v r -> is_result T r w -> evaluates lm strtold T registers (Apply1 name a) w
| ev_apply2 : forall name o a b u v r w, In (name, o) names2 ->
    evaluates lm strtold T registers a u -> evaluates lm strtold T registers b v ->
    op2_result lm T o u v r -> is_result T r w -> evaluates lm strtold T registers (Apply2 name a b) w.

(** * Sessions *)

(** the number a struct number stands for *)
Definition abstract (nb : number) : tvalue :=
  mk_tvalue (type_ nb) (takum_value (type_ nb) nb)
    (if integer_value nb =? 2 ^ 63 - 1 then None else Some (integer_value nb)).
Definition registers (w : world) : list tvalue := map abstract (results w).

(** the text printed for a number *)
Definition shows (lm : libm) (v : tvalue) (p : printed) : Prop :=
  match vint v with
  | Some z => p = PInt z
  | None =>
      exists f x, to_float lm (kind_of (vtype v)) (bits_of (vtype v)) f80 f /\ f (vtakum v) = Val x /\
        p = if is_nan x then PNaR else PFloat x
  end.

(** the lines of an input: each ends with a newline, the last one perhaps with
    the end of the input *)
Fixpoint lines_from (line : bytes) (input : bytes) : list bytes :=
  match input with
  | [] => match line with [] => [] | _ => [line] end
  | c :: input' =>
      if ascii_dec c "010" then (line ++ [c]) :: lines_from [] input' else lines_from (line ++ [c]) input'
  end.
Definition lines (input : bytes) : list bytes := lines_from [] input.
(** a string of C ends at its first NUL *)
Fixpoint up_to_nul (s : bytes) : bytes :=
  match s with
  | [] => []
  | c :: s' => if ascii_dec c "000" then [] else c :: up_to_nul s'
  end.

(** Processing some lines. *)
Fixpoint run (lm : libm) strtold (ls : list bytes) (w : world) : outcome world :=
  match ls with
  | [] => Val w
  | line :: ls' => let! w' := process_line lm strtold line w in run lm strtold ls' w'
  end.
(** Processing some lines from the start of the program with enough memory
    leads to the state w. *)
Definition session (lm : libm) strtold (ls : list bytes) (w : world) : Prop :=
  run lm strtold ls (initial []) = Val w.

(** the words of a line, between spaces and newlines *)
Definition separator (c : ascii) : Prop := c = " "%char \/ c = "010"%char.
Inductive words : bytes -> list bytes -> Prop :=
| words_none : words [] []
| words_separator : forall c s ws, separator c -> words s ws -> words (c :: s) ws
| words_last : forall w, w <> [] -> Forall (fun c => ~ separator c) w -> words w [w]
| words_word : forall w c s ws, w <> [] -> Forall (fun c => ~ separator c) w -> separator c ->
    words s ws -> words (w ++ c :: s) (w :: ws).

(** The results a session has printed, in order. *)
Fixpoint printed_results (out : list event) : list (nat * printed) :=
  match out with
  | [] => []
  | Result i p :: out' => (i, p) :: printed_results out'
  | _ :: out' => printed_results out'
  end.
(** The last text printed for register i. *)
Fixpoint last_printed (i : nat) (rs : list (nat * printed)) : option printed :=
  match rs with
  | [] => None
  | (j, p) :: rs' =>
      match last_printed i rs' with
      | Some q => Some q
      | None => if Nat.eqb i j then Some p else None
      end
  end.
(** the list l with its element number i replaced by v *)
Definition replaced {A} (i : nat) (v : A) (l : list A) : list A := firstn i l ++ v :: skipn (S i) l.
(** what a register holds at the start *)
Definition zero_value : tvalue := mk_tvalue TAKUM8 0 (Some 0).

(** * Decimal numerals *)
Definition decimal_digit (d : nat) : ascii := ascii_of_nat (48 + d).
Definition decimal_value (ds : list nat) : Z := fold_left (fun a d => 10 * a + Z.of_nat d) ds 0.
(** the digits of a number, without leading zeros *)
Definition digits (ds : list nat) : Prop :=
  Forall (fun d => (d < 10)%nat) ds /\ (ds = [0%nat] \/ exists d ds', ds = d :: ds' /\ d <> 0%nat).
Inductive numeral : bytes -> Z -> Prop :=
| numeral_positive : forall ds, digits ds -> numeral (map decimal_digit ds) (decimal_value ds)
| numeral_negative : forall ds, digits ds -> numeral ("-"%char :: map decimal_digit ds) (- decimal_value ds).

(** * Reading lines *)

(** a line buffer: null, or a block of line_capacity bytes *)
Definition buffer_ok (b : buffer) : Prop :=
  match block b with
  | None => True
  | Some cells => List.length cells = line_capacity b /\ (4 <= line_capacity b)%nat
  end.
(** getline has read the line taken *)
Definition has_read (g : got) (taken rest : bytes) : Prop :=
  returned g = Some (List.length taken) /\ unread g = rest /\
  exists cells, block (line_buffer g) = Some cells /\ c_string cells = Val (up_to_nul taken).
