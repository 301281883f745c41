(** Where the text of a scalar stands if it is delivered without copying. *)
From Verif Require Export SpecBlock Token.

(** [delimited style s y r]: [s] begins with a scalar of this style that has [y] between
    its delimiters, and [r] is the text after it: quotes around a quoted scalar, nothing
    around a plain one, the indicator, the header line and the indentation before the text
    of a block scalar. *)
Definition delimited (style : scalar_style) (s y r : str) : Prop :=
  match style with
  | Plain => s = y ++ r
  | SingleQuote => s = 39%N :: y ++ 39%N :: r
  | DoubleQuote => s = 34%N :: y ++ 34%N :: r
  | Literal => exists header k rest, header_line header (repeat 32%N k ++ y ++ rest ++ r) /\
      s = 124%N :: header ++ repeat 32%N k ++ y ++ rest ++ r
  | Folded => exists header k rest, header_line header (repeat 32%N k ++ y ++ rest ++ r) /\
      s = 62%N :: header ++ repeat 32%N k ++ y ++ rest ++ r
  end.
