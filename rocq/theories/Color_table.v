(** The colour table: src/hob3l/gc-color.sieve 9-155, in the order of the file *)
From Coq Require Import String Ascii List NArith.
Import ListNotations.

(** a C string, without the terminating zero *)
Definition chars (s : string) : list nat := map nat_of_ascii (list_ascii_of_string s).
Local Open Scope string_scope.

Definition color_names : list (list nat * N) := map (fun e => (chars (fst e), snd e)) [
  ("aliceblue", 0xf0f8ff%N);
  ("antiquewhite", 0xfaebd7%N);
  ("aqua", 0x00ffff%N);
  ("aquamarine", 0x7fffd4%N);
  ("azure", 0xf0ffff%N);
  ("beige", 0xf5f5dc%N);
  ("bisque", 0xffe4c4%N);
  ("black", 0x000000%N);
  ("blanchedalmond", 0xffebcd%N);
  ("blue", 0x0000ff%N);
  ("blueviolet", 0x8a2be2%N);
  ("brown", 0xa52a2a%N);
  ("burlywood", 0xdeb887%N);
  ("cadetblue", 0x5f9ea0%N);
  ("chartreuse", 0x7fff00%N);
  ("chocolate", 0xd2691e%N);
  ("coral", 0xff7f50%N);
  ("cornflowerblue", 0x6495ed%N);
  ("cornsilk", 0xfff8dc%N);
  ("crimson", 0xdc143c%N);
  ("cyan", 0x00ffff%N);
  ("darkblue", 0x00008b%N);
  ("darkcyan", 0x008b8b%N);
  ("darkgoldenrod", 0xb8860b%N);
  ("darkgray", 0xa9a9a9%N);
  ("darkgreen", 0x006400%N);
  ("darkgrey", 0xa9a9a9%N);
  ("darkkhaki", 0xbdb76b%N);
  ("darkmagenta", 0x8b008b%N);
  ("darkolivegreen", 0x556b2f%N);
  ("darkorange", 0xff8c00%N);
  ("darkorchid", 0x9932cc%N);
  ("darkred", 0x8b0000%N);
  ("darksalmon", 0xe9967a%N);
  ("darkseagreen", 0x8fbc8f%N);
  ("darkslateblue", 0x483d8b%N);
  ("darkslategray", 0x2f4f4f%N);
  ("darkslategrey", 0x2f4f4f%N);
  ("darkturquoise", 0x00ced1%N);
  ("darkviolet", 0x9400d3%N);
  ("deeppink", 0xff1493%N);
  ("deepskyblue", 0x00bfff%N);
  ("dimgray", 0x696969%N);
  ("dimgrey", 0x696969%N);
  ("dodgerblue", 0x1e90ff%N);
  ("firebrick", 0xb22222%N);
  ("floralwhite", 0xfffaf0%N);
  ("forestgreen", 0x228b22%N);
  ("fuchsia", 0xff00ff%N);
  ("gainsboro", 0xdcdcdc%N);
  ("ghostwhite", 0xf8f8ff%N);
  ("gold", 0xffd700%N);
  ("goldenrod", 0xdaa520%N);
  ("gray", 0x808080%N);
  ("green", 0x008000%N);
  ("greenyellow", 0xadff2f%N);
  ("grey", 0x808080%N);
  ("honeydew", 0xf0fff0%N);
  ("hotpink", 0xff69b4%N);
  ("indianred", 0xcd5c5c%N);
  ("indigo", 0x4b0082%N);
  ("ivory", 0xfffff0%N);
  ("khaki", 0xf0e68c%N);
  ("lavender", 0xe6e6fa%N);
  ("lavenderblush", 0xfff0f5%N);
  ("lawngreen", 0x7cfc00%N);
  ("lemonchiffon", 0xfffacd%N);
  ("lightblue", 0xadd8e6%N);
  ("lightcoral", 0xf08080%N);
  ("lightcyan", 0xe0ffff%N);
  ("lightgoldenrodyellow", 0xfafad2%N);
  ("lightgray", 0xd3d3d3%N);
  ("lightgreen", 0x90ee90%N);
  ("lightgrey", 0xd3d3d3%N);
  ("lightpink", 0xffb6c1%N);
  ("lightsalmon", 0xffa07a%N);
  ("lightseagreen", 0x20b2aa%N);
  ("lightskyblue", 0x87cefa%N);
  ("lightslategray", 0x778899%N);
  ("lightslategrey", 0x778899%N);
  ("lightsteelblue", 0xb0c4de%N);
  ("lightyellow", 0xffffe0%N);
  ("lime", 0x00ff00%N);
  ("limegreen", 0x32cd32%N);
  ("linen", 0xfaf0e6%N);
  ("magenta", 0xff00ff%N);
  ("maroon", 0x800000%N);
  ("mediumaquamarine", 0x66cdaa%N);
  ("mediumblue", 0x0000cd%N);
  ("mediumorchid", 0xba55d3%N);
  ("mediumpurple", 0x9370db%N);
  ("mediumseagreen", 0x3cb371%N);
  ("mediumslateblue", 0x7b68ee%N);
  ("mediumspringgreen", 0x00fa9a%N);
  ("mediumturquoise", 0x48d1cc%N);
  ("mediumvioletred", 0xc71585%N);
  ("midnightblue", 0x191970%N);
  ("mintcream", 0xf5fffa%N);
  ("mistyrose", 0xffe4e1%N);
  ("moccasin", 0xffe4b5%N);
  ("navajowhite", 0xffdead%N);
  ("navy", 0x000080%N);
  ("oldlace", 0xfdf5e6%N);
  ("olive", 0x808000%N);
  ("olivedrab", 0x6b8e23%N);
  ("orange", 0xffa500%N);
  ("orangered", 0xff4500%N);
  ("orchid", 0xda70d6%N);
  ("palegoldenrod", 0xeee8aa%N);
  ("palegreen", 0x98fb98%N);
  ("paleturquoise", 0xafeeee%N);
  ("palevioletred", 0xdb7093%N);
  ("papayawhip", 0xffefd5%N);
  ("peachpuff", 0xffdab9%N);
  ("peru", 0xcd853f%N);
  ("pink", 0xffc0cb%N);
  ("plum", 0xdda0dd%N);
  ("powderblue", 0xb0e0e6%N);
  ("purple", 0x800080%N);
  ("red", 0xff0000%N);
  ("rosybrown", 0xbc8f8f%N);
  ("royalblue", 0x4169e1%N);
  ("saddlebrown", 0x8b4513%N);
  ("salmon", 0xfa8072%N);
  ("sandybrown", 0xf4a460%N);
  ("seagreen", 0x2e8b57%N);
  ("seashell", 0xfff5ee%N);
  ("sienna", 0xa0522d%N);
  ("silver", 0xc0c0c0%N);
  ("skyblue", 0x87ceeb%N);
  ("slateblue", 0x6a5acd%N);
  ("slategray", 0x708090%N);
  ("slategrey", 0x708090%N);
  ("snow", 0xfffafa%N);
  ("springgreen", 0x00ff7f%N);
  ("steelblue", 0x4682b4%N);
  ("tan", 0xd2b48c%N);
  ("teal", 0x008080%N);
  ("thistle", 0xd8bfd8%N);
  ("tomato", 0xff6347%N);
  ("turquoise", 0x40e0d0%N);
  ("violet", 0xee82ee%N);
  ("wheat", 0xf5deb3%N);
  ("white", 0xffffff%N);
  ("whitesmoke", 0xf5f5f5%N);
  ("yellow", 0xffff00%N);
  ("yellowgreen", 0x9acd32%N)].
