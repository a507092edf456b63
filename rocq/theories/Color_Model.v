(** vrml/csscolors.py: colours from strings.  Characters are code points;
    lower-casing, white space and digits are modelled for ASCII only. *)
From Verif Require Import Base Text Float.
Local Open Scope Z_scope.

(** a decimal literal n/10^k of the source, correctly rounded to a double *)
Definition dlit (n k : Z) : fl :=
  match n with
  | Zpos p => match 10 ^ k with
              | Zpos q => SFdiv 53 1024 (S754_finite false p 0) (S754_finite false q 0)
              | _ => S754_nan
              end
  | _ => fzero
  end.
Definition color := (fl * fl * fl)%type.

(** str.lower on ASCII characters *)
Definition lower_char (c : N) : N := if (65 <=? c)%N && (c <=? 90)%N then (c + 32)%N else c.
Definition lower (t : text) : text := map lower_char t.

(** value of a hexadecimal digit *)
Definition hexdigit (c : N) : option Z :=
  if (48 <=? c)%N && (c <=? 57)%N then Some (Z.of_N c - 48)
  else if (97 <=? c)%N && (c <=? 102)%N then Some (Z.of_N c - 87)
  else if (65 <=? c)%N && (c <=? 70)%N then Some (Z.of_N c - 55)
  else None.
Definition is_space (c : N) : bool := ((9 <=? c) && (c <=? 13) || (28 <=? c) && (c <=? 32))%N.
Fixpoint lstrip (t : text) : text :=
  match t with c :: r => if is_space c then lstrip r else t | [] => [] end.
Definition strip (t : text) : text := List.rev (lstrip (List.rev (lstrip t))).
(** digits with single underscores between them; [us]: an underscore may come
    next; [some]: the text may end here *)
Fixpoint hexdigits (acc : Z) (us some : bool) (t : text) : option Z :=
  match t with
  | [] => if some then Some acc else None
  | c :: r =>
      if (c =? 95)%N then if us then hexdigits acc false false r else None
      else match hexdigit c with
           | Some v => hexdigits (16 * acc + v) true true r
           | None => None
           end
  end.
Definition hexprefixed (t : text) : option Z :=
  match t with
  | 48%N :: x :: r => if (x =? 120)%N || (x =? 88)%N then hexdigits 0 true false r
                      else hexdigits 0 false false t
  | _ => hexdigits 0 false false t
  end.
(** int( t, 16 ); None = ValueError *)
Definition int16 (t : text) : option Z :=
  match strip t with
  | 45%N :: r => option_map Z.opp (hexprefixed r)
  | 43%N :: r => hexprefixed r
  | r => hexprefixed r
  end.

Definition f255 : fl := S754_finite false 8972014882652160 (-45).
(** csscolors.py 17-19 toFloat: [((value&(255<<shift))>>shift)/255.0] *)
Definition toFloat (value shift : Z) : fl :=
  match float_of_Z (Z.shiftr (Z.land value (Z.shiftl 255 shift)) shift) with
  | Some f => fdiv f f255
  | None => S754_nan
  end.
(** csscolors.py 14-16 toInt: [int(round(value*255,0))]; None = ValueError/OverflowError *)
Definition toInt (value : fl) : option Z := round_half_even (fmul value f255).

(** csscolors.py 22-163 cssColors *)
Definition cssColors : list (text * color) :=
  [(lit "black", (dlit 0 1, dlit 0 1, dlit 0 1));
   (lit "dimgray", (dlit 4118 4, dlit 4118 4, dlit 4118 4));
   (lit "gray", (dlit 502 3, dlit 502 3, dlit 502 3));
   (lit "darkgray", (dlit 6627 4, dlit 6627 4, dlit 6627 4));
   (lit "silver", (dlit 7529 4, dlit 7529 4, dlit 7529 4));
   (lit "lightgrey", (dlit 8275 4, dlit 8275 4, dlit 8275 4));
   (lit "gainsboro", (dlit 8627 4, dlit 8627 4, dlit 8627 4));
   (lit "whitesmoke", (dlit 9608 4, dlit 9608 4, dlit 9608 4));
   (lit "white", (dlit 10 1, dlit 10 1, dlit 10 1));
   (lit "snow", (dlit 10 1, dlit 9804 4, dlit 9804 4));
   (lit "rosybrown", (dlit 7373 4, dlit 5608 4, dlit 5608 4));
   (lit "lightcoral", (dlit 9412 4, dlit 502 3, dlit 502 3));
   (lit "indianred", (dlit 8039 4, dlit 3608 4, dlit 3608 4));
   (lit "brown", (dlit 6471 4, dlit 1647 4, dlit 1647 4));
   (lit "firebrick", (dlit 698 3, dlit 1333 4, dlit 1333 4));
   (lit "maroon", (dlit 502 3, dlit 0 1, dlit 0 1));
   (lit "darkred", (dlit 5451 4, dlit 0 1, dlit 0 1));
   (lit "red", (dlit 10 1, dlit 0 1, dlit 0 1));
   (lit "mistyrose", (dlit 10 1, dlit 8941 4, dlit 8824 4));
   (lit "salmon", (dlit 9804 4, dlit 502 3, dlit 4471 4));
   (lit "tomato", (dlit 10 1, dlit 3882 4, dlit 2784 4));
   (lit "darksalmon", (dlit 9137 4, dlit 5882 4, dlit 4784 4));
   (lit "coral", (dlit 10 1, dlit 498 3, dlit 3137 4));
   (lit "orangered", (dlit 10 1, dlit 2706 4, dlit 0 1));
   (lit "lightsalmon", (dlit 10 1, dlit 6275 4, dlit 4784 4));
   (lit "sienna", (dlit 6275 4, dlit 3216 4, dlit 1765 4));
   (lit "seashell", (dlit 10 1, dlit 9608 4, dlit 9333 4));
   (lit "chocolate", (dlit 8235 4, dlit 4118 4, dlit 1176 4));
   (lit "saddlebrown", (dlit 5451 4, dlit 2706 4, dlit 745 4));
   (lit "sandybrown", (dlit 9569 4, dlit 6431 4, dlit 3765 4));
   (lit "peachpuff", (dlit 10 1, dlit 8549 4, dlit 7255 4));
   (lit "peru", (dlit 8039 4, dlit 5216 4, dlit 2471 4));
   (lit "linen", (dlit 9804 4, dlit 9412 4, dlit 902 3));
   (lit "bisque", (dlit 10 1, dlit 8941 4, dlit 7686 4));
   (lit "burlywood", (dlit 8706 4, dlit 7216 4, dlit 5294 4));
   (lit "darkorange", (dlit 10 1, dlit 549 3, dlit 0 1));
   (lit "antiquewhite", (dlit 9804 4, dlit 9216 4, dlit 8431 4));
   (lit "tan", (dlit 8235 4, dlit 7059 4, dlit 549 3));
   (lit "blanchedalmond", (dlit 10 1, dlit 9216 4, dlit 8039 4));
   (lit "navajowhite", (dlit 10 1, dlit 8706 4, dlit 6784 4));
   (lit "papayawhip", (dlit 10 1, dlit 9373 4, dlit 8353 4));
   (lit "moccasin", (dlit 10 1, dlit 8941 4, dlit 7098 4));
   (lit "oldlace", (dlit 9922 4, dlit 9608 4, dlit 902 3));
   (lit "wheat", (dlit 9608 4, dlit 8706 4, dlit 702 3));
   (lit "orange", (dlit 10 1, dlit 6471 4, dlit 0 1));
   (lit "floralwhite", (dlit 10 1, dlit 9804 4, dlit 9412 4));
   (lit "goldenrod", (dlit 8549 4, dlit 6471 4, dlit 1255 4));
   (lit "cornsilk", (dlit 10 1, dlit 9725 4, dlit 8627 4));
   (lit "gold", (dlit 10 1, dlit 8431 4, dlit 0 1));
   (lit "lemonchiffon", (dlit 10 1, dlit 9804 4, dlit 8039 4));
   (lit "palegoldenrod", (dlit 9333 4, dlit 9098 4, dlit 6667 4));
   (lit "khaki", (dlit 9412 4, dlit 902 3, dlit 549 3));
   (lit "darkkhaki", (dlit 7412 4, dlit 7176 4, dlit 4196 4));
   (lit "ivory", (dlit 10 1, dlit 10 1, dlit 9412 4));
   (lit "beige", (dlit 9608 4, dlit 9608 4, dlit 8627 4));
   (lit "lightyellow", (dlit 10 1, dlit 10 1, dlit 8784 4));
   (lit "lightgoldenrodyellow", (dlit 9804 4, dlit 9804 4, dlit 8235 4));
   (lit "darkgoldenrod", (dlit 7216 4, dlit 7137 4, dlit 431 4));
   (lit "olive", (dlit 502 3, dlit 502 3, dlit 0 1));
   (lit "yellow", (dlit 10 1, dlit 10 1, dlit 0 1));
   (lit "yellowgreen", (dlit 6627 4, dlit 8039 4, dlit 1961 4));
   (lit "olivedrab", (dlit 4196 4, dlit 5569 4, dlit 1373 4));
   (lit "darkolivegreen", (dlit 3333 4, dlit 4196 4, dlit 1843 4));
   (lit "greenyellow", (dlit 6784 4, dlit 10 1, dlit 1843 4));
   (lit "chartreuse", (dlit 498 3, dlit 10 1, dlit 0 1));
   (lit "lawngreen", (dlit 4863 4, dlit 9882 4, dlit 0 1));
   (lit "honeydew", (dlit 9412 4, dlit 10 1, dlit 9412 4));
   (lit "darkseagreen", (dlit 5608 4, dlit 7373 4, dlit 5608 4));
   (lit "lightgreen", (dlit 5647 4, dlit 9333 4, dlit 5647 4));
   (lit "palegreen", (dlit 5961 4, dlit 9843 4, dlit 5961 4));
   (lit "forestgreen", (dlit 1333 4, dlit 5451 4, dlit 1333 4));
   (lit "limegreen", (dlit 1961 4, dlit 8039 4, dlit 1961 4));
   (lit "darkgreen", (dlit 0 1, dlit 3922 4, dlit 0 1));
   (lit "green", (dlit 0 1, dlit 502 3, dlit 0 1));
   (lit "lime", (dlit 0 1, dlit 10 1, dlit 0 1));
   (lit "mediumseagreen", (dlit 2353 4, dlit 702 3, dlit 4431 4));
   (lit "seagreen", (dlit 1804 4, dlit 5451 4, dlit 3412 4));
   (lit "mintcream", (dlit 9608 4, dlit 10 1, dlit 9804 4));
   (lit "springgreen", (dlit 0 1, dlit 10 1, dlit 498 3));
   (lit "mediumspringgreen", (dlit 0 1, dlit 9804 4, dlit 6039 4));
   (lit "mediumaquamarine", (dlit 4 1, dlit 8039 4, dlit 6667 4));
   (lit "aquamarine", (dlit 498 3, dlit 10 1, dlit 8314 4));
   (lit "turquoise", (dlit 251 3, dlit 8784 4, dlit 8157 4));
   (lit "mediumturquoise", (dlit 2824 4, dlit 8196 4, dlit 8 1));
   (lit "lightseagreen", (dlit 1255 4, dlit 698 3, dlit 6667 4));
   (lit "azure", (dlit 9412 4, dlit 10 1, dlit 10 1));
   (lit "lightcyan", (dlit 8784 4, dlit 10 1, dlit 10 1));
   (lit "paleturquoise", (dlit 6863 4, dlit 9333 4, dlit 9333 4));
   (lit "darkslategray", (dlit 1843 4, dlit 3098 4, dlit 3098 4));
   (lit "teal", (dlit 0 1, dlit 502 3, dlit 502 3));
   (lit "darkcyan", (dlit 0 1, dlit 5451 4, dlit 5451 4));
   (lit "aqua", (dlit 0 1, dlit 10 1, dlit 10 1));
   (lit "cyan", (dlit 0 1, dlit 10 1, dlit 10 1));
   (lit "cadetblue", (dlit 3725 4, dlit 6196 4, dlit 6275 4));
   (lit "darkturquoise", (dlit 0 1, dlit 8078 4, dlit 8196 4));
   (lit "powderblue", (dlit 6902 4, dlit 8784 4, dlit 902 3));
   (lit "lightblue", (dlit 6784 4, dlit 8471 4, dlit 902 3));
   (lit "deepskyblue", (dlit 0 1, dlit 749 3, dlit 10 1));
   (lit "skyblue", (dlit 5294 4, dlit 8078 4, dlit 9294 4));
   (lit "lightskyblue", (dlit 5294 4, dlit 8078 4, dlit 9804 4));
   (lit "steelblue", (dlit 2745 4, dlit 5098 4, dlit 7059 4));
   (lit "aliceblue", (dlit 9412 4, dlit 9725 4, dlit 10 1));
   (lit "slategray", (dlit 4392 4, dlit 502 3, dlit 5647 4));
   (lit "lightslategray", (dlit 4667 4, dlit 5333 4, dlit 6 1));
   (lit "dodgerblue", (dlit 1176 4, dlit 5647 4, dlit 10 1));
   (lit "lightsteelblue", (dlit 6902 4, dlit 7686 4, dlit 8706 4));
   (lit "cornflowerblue", (dlit 3922 4, dlit 5843 4, dlit 9294 4));
   (lit "royalblue", (dlit 157 4, dlit 863 4, dlit 5647 4));
   (lit "ghostwhite", (dlit 9725 4, dlit 9725 4, dlit 10 1));
   (lit "lavender", (dlit 902 3, dlit 902 3, dlit 9804 4));
   (lit "midnightblue", (dlit 98 3, dlit 98 3, dlit 4392 4));
   (lit "navy", (dlit 0 1, dlit 0 1, dlit 502 3));
   (lit "darkblue", (dlit 0 1, dlit 0 1, dlit 5451 4));
   (lit "mediumblue", (dlit 0 1, dlit 0 1, dlit 8039 4));
   (lit "blue", (dlit 0 1, dlit 0 1, dlit 10 1));
   (lit "darkslateblue", (dlit 2824 4, dlit 2392 4, dlit 5451 4));
   (lit "slateblue", (dlit 4157 4, dlit 3529 4, dlit 8039 4));
   (lit "mediumslateblue", (dlit 4824 4, dlit 4078 4, dlit 9333 4));
   (lit "mediumpurple", (dlit 5765 4, dlit 4392 4, dlit 8588 4));
   (lit "blueviolet", (dlit 5412 4, dlit 1686 4, dlit 8863 4));
   (lit "indigo", (dlit 2941 4, dlit 0 1, dlit 5098 4));
   (lit "darkorchid", (dlit 6 1, dlit 1961 4, dlit 8 1));
   (lit "darkviolet", (dlit 5804 4, dlit 0 1, dlit 8275 4));
   (lit "mediumorchid", (dlit 7294 4, dlit 3333 4, dlit 8275 4));
   (lit "thistle", (dlit 8471 4, dlit 749 3, dlit 8471 4));
   (lit "plum", (dlit 8667 4, dlit 6275 4, dlit 8667 4));
   (lit "violet", (dlit 9333 4, dlit 5098 4, dlit 9333 4));
   (lit "purple", (dlit 502 3, dlit 0 1, dlit 502 3));
   (lit "darkmagenta", (dlit 5451 4, dlit 0 1, dlit 5451 4));
   (lit "fuchsia", (dlit 10 1, dlit 0 1, dlit 10 1));
   (lit "magenta", (dlit 10 1, dlit 0 1, dlit 10 1));
   (lit "orchid", (dlit 8549 4, dlit 4392 4, dlit 8392 4));
   (lit "mediumvioletred", (dlit 7804 4, dlit 824 4, dlit 5216 4));
   (lit "deeppink", (dlit 10 1, dlit 784 4, dlit 5765 4));
   (lit "hotpink", (dlit 10 1, dlit 4118 4, dlit 7059 4));
   (lit "lavenderblush", (dlit 10 1, dlit 9412 4, dlit 9608 4));
   (lit "palevioletred", (dlit 8588 4, dlit 4392 4, dlit 5765 4));
   (lit "pink", (dlit 10 1, dlit 7529 4, dlit 8039 4));
   (lit "crimson", (dlit 8627 4, dlit 784 4, dlit 2353 4));
   (lit "lightpink", (dlit 10 1, dlit 7137 4, dlit 7569 4))].

Fixpoint css_get (t : text) (l : list (text * color)) : option color :=
  match l with
  | [] => None
  | (n, c) :: r => if text_eqb n t then Some c else css_get t r
  end.

(** csscolors.py 2-13 stringToColor *)
Definition stringToColor (value : text) : res color :=
  let value := lower value in
  match css_get value cssColors with
  | Some c => Ok c
  | None =>
      match value with
      | 35%N :: r =>
          match int16 r with
          | Some n => Ok (toFloat n 16, toFloat n 8, toFloat n 0)
          | None => Exc ValueError
          end
      | _ => Exc ValueError
      end
  end.
