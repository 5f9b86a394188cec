(** sprite/style_file.go: names of sprite files such as sprite@2x.png, as bytes. *)
From Coq Require Import String ZArith List Lia Bool.
From Verif Require Import GoBase Json Regex.
Import ListNotations.
Open Scope Z_scope.

(** strconv.FormatInt(n, 10) for 0 <= n < 10^fuel *)
Fixpoint fmt_pos (fuel : nat) (n : Z) : gstr :=
  match fuel with
  | O => []
  | S f => if n <? 10 then [48 + n] else fmt_pos f (n / 10) ++ [48 + n mod 10]
  end.
Definition FormatInt (n : Z) : gstr := if n <? 0 then 45 :: fmt_pos 20 (- n) else fmt_pos 20 n.
(** Value of a string of decimal digits *)
Definition dec (s : gstr) : Z := fold_left (fun a c => a * 10 + (c - 48)) s 0.
(** strconv.ParseInt(s, 10, 64) of a non-empty string of digits; None is the range error *)
Definition ParseIntDigits (s : gstr) : option Z := if dec s <? 2 ^ 63 then Some (dec s) else None.
(** strings.ToLower of ASCII bytes; other bytes are left alone (Go lower-cases non-ASCII letters too) *)
Definition lower_byte (c : Z) : Z := if (65 <=? c) && (c <=? 90) then c + 32 else c.
Definition ToLower (s : gstr) : gstr := map lower_byte s.

(** sprite/style_file.go:14-18 *)
Record StyleFile := mkSF { sfType : gstr; sfExt : gstr; sfRatio : Z }.

(** sprite/style_file.go:33-38 String *)
Definition SFString (f : StyleFile) : gstr :=
  if sfRatio f <=? 1 then sfType f ++ sfExt f
  else sfType f ++ B "@" ++ FormatInt (sfRatio f) ++ B "x" ++ sfExt f.

(** sprite/style_file.go:40 *)
Definition reSubFile : re :=
  seqs [ Grp 1 (plus (fun c => negb (c =? 64)));
         Opt (Grp 2 (seqs [Chr (Z.eqb 64); Grp 3 (plus digit); Chr (Z.eqb 120)]));
         Grp 4 (Seq (Chr (Z.eqb 46)) (plus alnum));
         EndText ].

(** sprite/style_file.go:52-59: a missing ratio or one that does not fit stays 1 *)
Definition ratio_of (d : gstr) : Z :=
  match d with [] => 1 | _ => match ParseIntDigits d with Some i => i | None => 1 end end.
(** sprite/style_file.go:42-62 ParseStyleFile *)
Definition ParseStyleFile (s : gstr) : out StyleFile :=
  match search reSubFile s with
  | None => Err
  | Some m => Val (mkSF (ToLower (group 1 m)) (ToLower (group 4 m)) (ratio_of (group 3 m)))
  end.
