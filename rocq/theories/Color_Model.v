(** style/colors.go and style/colorextra/*.go: colour strings and HSL/HSV colours.  float64 values are reals. *)
From Coq Require Import String ZArith Reals Rtrigo1 Ratan List Lia Bool.
From Verif Require Import GoBase Num TileR_Model MvtProj_Model Raster_Model Json Regex StyleFile_Model Style_Model.
Import ListNotations.
Open Scope Z_scope.

(** ** Hexadecimal colours *)

(** The strings string(ch) of the runes of a string of at most three bytes; a byte that starts no valid encoding is U+FFFD *)
Definition cont (b : Z) : bool := (128 <=? b) && (b <=? 191).
Definition valid2 (a b : Z) : bool := (194 <=? a) && (a <=? 223) && cont b.
Definition valid3 (a b c : Z) : bool :=
  (224 <=? a) && (a <=? 239) && (if a =? 224 then (160 <=? b) && (b <=? 191) else if a =? 237 then (128 <=? b) && (b <=? 159) else cont b) && cont c.
Fixpoint runes (s : gstr) : list gstr :=
  match s with
  | [] => []
  | a :: t =>
      if a <? 128 then [a] :: runes t else
      match t with
      | [] => [[239; 191; 189]]
      | b :: t' =>
          if valid2 a b then [a; b] :: runes t' else
          match t' with
          | c :: t'' => if valid3 a b c then [a; b; c] :: runes t'' else [239; 191; 189] :: runes t
          | [] => [239; 191; 189] :: runes t
          end
      end
  end.
Definition hexval (c : Z) : option Z :=
  if digit c then Some (c - 48) else if (97 <=? c) && (c <=? 102) then Some (c - 87) else if (65 <=? c) && (c <=? 70) then Some (c - 55) else None.
(** strconv.ParseUint(s, 16, 64) of two bytes *)
Definition parse_hex2 (a b : Z) : option Z :=
  match hexval a, hexval b with Some x, Some y => Some (x * 16 + y) | _, _ => None end.
(** style/colors.go:119-132: the first six bytes as three numbers *)
Definition hex_fragments (hex6Char : gstr) (alpha : Z) : out gocolor :=
  match hex6Char with
  | a :: b :: c :: d :: e :: f :: _ =>
      match parse_hex2 a b with None => Err | Some r =>
      match parse_hex2 c d with None => Err | Some g =>
      match parse_hex2 e f with None => Err | Some bl => Val (CRGBA (u8 r) (u8 g) (u8 bl) alpha) end end end
  | _ => Crash
  end.
(** style/colors.go:104-133 getHexColor; len is in bytes *)
Definition getHexColor (str : gstr) (alpha : Z) : out gocolor :=
  match length str with
  | 7%nat => hex_fragments (skipn 1 str) alpha
  | 4%nat => hex_fragments (concat (map (fun r => r ++ r) (runes (skipn 1 str)))) alpha
  | _ => Err
  end.

(** ** HSL *)

(** style/colorextra/hsl.go:16-43 and validation.go *)
Definition in_range (v lo hi : R) : bool := negb (Rltb v lo || Rltb hi v).
Definition NewHSLColor (h s l : R) (a : Z) : out gocolor :=
  if negb (in_range h 0 360) then Err else if negb (in_range s 0 1) then Err else if negb (in_range l 0 1) then Err else Val (CHSL h s l a).

(** style/colorextra/uint32.go *)
Definition ConvertUint8ToUint32Color (i : Z) : Z := u32 (u32 (i * 256) + i).
(** style/colorextra/hsl.go:76-81 *)
Definition zeroToOneColorToUint32 (i : R) : Z := let r := u32 (RoundHA (255 * i)) in Z.lor r (u32 (r * 256)).
(** style/colorextra/hsl.go:112-129 *)
Definition hueToRGB (p q t : R) : R :=
  (let t := if Rltb t 0 then t + 360 else t in
   let t := if Rltb 360 t then t - 360 else t in
   if Rltb t 60 then p + (q - p) * (t / 60)
   else if Rltb t 180 then q
   else if Rltb t 240 then p + (q - p) * (240 - t) / 60
   else p)%R.
(** style/colorextra/hsl.go:83-106 HSLColor.RGBA *)
Definition hslRGBA (h s l : R) (a : Z) : Z * Z * Z * Z :=
  let a := ConvertUint8ToUint32Color a in
  if Reqb s 0 then let r := zeroToOneColorToUint32 l in (r, r, r, a) else
  let q := (if Rltb l (1 / 2) then l * (1 + s) else l + s - l * s)%R in
  let p := (2 * l - q)%R in
  (zeroToOneColorToUint32 (hueToRGB p q (h + 120)), zeroToOneColorToUint32 (hueToRGB p q h), zeroToOneColorToUint32 (hueToRGB p q (h - 120)), a).

(** style/colorextra/hue.go:8-43 getHue, in degrees *)
Definition getHue (r g b : Z) : R :=
  (let r := IZR r in let g := IZR g in let b := IZR b in
   let underSqRoot := r ^ 2 + g ^ 2 + b ^ 2 - (r * g + r * b + g * b) in
   let beforeSqRoot := r - (g / 2 + b / 2) in
   let inBrackets := if Rltb 0 underSqRoot then beforeSqRoot / sqrt underSqRoot else 1 in
   let arccosDeg := acos inBrackets * 180 / PI in
   if Rleb b g then arccosDeg else 360 - arccosDeg)%R.
(** style/colorextra/hsl.go:45-74 NewHSLFromRGB *)
Definition NewHSLFromRGB (r8 g8 b8 a : Z) : gocolor :=
  (let r := IZR r8 / 255 in let g := IZR g8 / 255 in let b := IZR b8 / 255 in
   let max := Rmax r (Rmax g b) in
   let min := Rmin r (Rmin g b) in
   let h := getHue r8 g8 b8 in
   let l := (max + min) / 2 in
   if Reqb max min then CHSL 0 0 l a else
   let d := max - min in
   let s := if Rltb (1 / 2) l then d / (2 - max - min) else d / (max + min) in
   CHSL h s l a)%R.
(** style/colorextra/hsv.go:46-68 NewHSVFromRGB: hue, saturation and value *)
Definition NewHSVFromRGB (r8 g8 b8 : Z) : R * R * R :=
  (let r := IZR r8 / 255 in let g := IZR g8 / 255 in let b := IZR b8 / 255 in
   let cMax := Rmax r (Rmax g b) in
   let cMin := Rmin r (Rmin g b) in
   let s := if Rltb 0 cMax then 1 - cMin / cMax else 0 in
   (getHue r8 g8 b8, s, cMax))%R.

(** ** Colour strings *)

Definition ws : re := Star space.
Definition num (n : nat) : re := Grp n (plus digit).
Definition comma : re := Chr (Z.eqb 44).
Definition pct : re := Chr (Z.eqb 37).
Definition close : re := Chr (Z.eqb 41).
(** \d*\.?\d* *)
Definition frac (n : nat) : re := Grp n (seqs [Star digit; Opt (Chr (Z.eqb 46)); Star digit]).
(** style/colors.go:69-74 *)
Definition strColorHSLRegexp : re := seqs [lit (B "hsl("); ws; num 1; ws; comma; ws; num 2; pct; ws; comma; ws; num 3; pct; ws; close].
Definition strColorHSLARegexp : re := seqs [lit (B "hsla("); ws; num 1; ws; comma; ws; num 2; pct; ws; comma; ws; num 3; pct; ws; comma; ws; frac 4; ws; close].
Definition strColorRGBRegexp : re := seqs [lit (B "rgb("); ws; num 1; ws; comma; ws; num 2; ws; comma; ws; num 3; ws; close].
Definition strColorRGBARegexp : re := seqs [lit (B "rgba("); ws; num 1; ws; comma; ws; num 2; ws; comma; ws; num 3; ws; comma; ws; frac 4; ws; close].

(** strconv.ParseFloat of digits with an optional point, exactly; None is the syntax error of a string without digits *)
Fixpoint span (p : Z -> bool) (s : gstr) : gstr * gstr :=
  match s with c :: t => if p c then let '(a, b) := span p t in (c :: a, b) else ([], s) | [] => ([], []) end.
Definition ParseDecimal (s : gstr) : option R :=
  let '(i, r) := span digit s in
  let f := skipn 1 r in
  match i ++ f with [] => None | d => Some (IZR (dec d) / 10 ^ length f)%R end.
(** strconv.ParseUint(s, 10, 8) of digits *)
Definition ParseUint8 (s : gstr) : option Z := if dec s <=? 255 then Some (dec s) else None.
(** style/colors.go:178 and 203: uint8(math.Round(alpha*256) - 1); a negative value keeps its low eight bits as on amd64 *)
Definition alpha_byte (a : R) : Z := u8 (RoundHA (a * 256)%R - 1).

(** style/colors.go:135-157 and 159-186 *)
Definition getHSLColor (m : caps) (alpha : Z) : out gocolor :=
  NewHSLColor (IZR (dec (group 1 m))) (IZR (dec (group 2 m)) / 100) (IZR (dec (group 3 m)) / 100) alpha.
Definition getHSLAColor (m : caps) : out gocolor :=
  match ParseDecimal (group 4 m) with None => Err | Some al => getHSLColor m (alpha_byte al) end.
(** style/colors.go:188-226 *)
Definition getRGBColor (m : caps) (alpha : Z) : out gocolor :=
  match ParseUint8 (group 1 m) with None => Err | Some r =>
  match ParseUint8 (group 2 m) with None => Err | Some g =>
  match ParseUint8 (group 3 m) with None => Err | Some b => Val (CRGBA r g b alpha) end end end.
Definition getRGBAColor (m : caps) : out gocolor :=
  obind (getRGBColor m 0) (fun c =>
  match ParseDecimal (group 4 m) with None => Err | Some al =>
  match c with CRGBA r g b _ => Val (CRGBA r g b (alpha_byte al)) | c => Val c end end).

(** style/colors.go:76-102 strToColor *)
Definition strToColor (str : gstr) (alpha : Z) : out gocolor :=
  match str with
  | [] => Val CNil
  | c :: _ =>
      if c =? 35 then getHexColor str alpha else
      match search strColorHSLRegexp str with Some m => getHSLColor m alpha | None =>
      match search strColorHSLARegexp str with Some m => getHSLAColor m | None =>
      match search strColorRGBRegexp str with Some m => getRGBColor m alpha | None =>
      match search strColorRGBARegexp str with Some m => getRGBAColor m | None => Err end end end end
  end.
