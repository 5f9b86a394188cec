(** font/sdf_builder.go in IEEE-754 binary64, without fused multiply-add.  Array indexes and image sizes are natural numbers;
    [v], which holds whole numbers as float64, is a list of natural numbers.  math.Pow(x, 2) is the rounded square. *)
From Coq Require Import ZArith List Bool.
From Flocq Require Import Core BinarySingleNaN.
From Verif Require Import GoBase GoArr TileF64_Model F64 ColorF64_Model.
Import ListNotations.
Open Scope nat_scope.

(** font/sdf_builder.go:143 *)
Definition INF64 : f64 := @B754_finite 53 1024 false 6103515625000000 14 eq_refl.
Definition fnat (n : nat) : f64 := fint (Z.of_nat n).

(** font/sdf_builder.go:235-237 getS *)
Definition getS64 (f : list f64) (v : list nat) (q k : nat) : res f64 :=
  let! fq := get f q in
  let! vk := get v k in
  let! fv := get f vk in
  Ok (fdiv (fsub (fadd fq (fmul (fnat q) (fnat q))) (fadd fv (fmul (fnat vk) (fnat vk)))) (fsub (fmul (fint 2) (fnat q)) (fmul (fint 2) (fnat vk)))).
(** font/sdf_builder.go:239-248 *)
Fixpoint pop64 (f : list f64) (v : list nat) (z : list f64) (q k : nat) : res (nat * f64) :=
  let! s := getS64 f v q k in
  let! zk := get z k in
  if Bleb s zk then match k with O => Panic | S k' => pop64 f v z q k' end
  else Ok (k, s).
(** font/sdf_builder.go:234-255 *)
Definition push64 (f : list f64) (st : nat * list nat * list f64) (q : nat) : res (nat * list nat * list f64) :=
  let '(k, v, z) := st in
  let! (k, s) := pop64 f v z q k in
  let k := S k in
  let! v := set_at v k q in
  let! z := set_at z k s in
  let! z := set_at z (k + 1) INF64 in
  Ok (k, v, z).
(** font/sdf_builder.go:258-264 *)
Fixpoint advance64 (fuel : nat) (z : list f64) (q k : nat) : res nat :=
  match fuel with
  | O => NoFuel
  | S fuel => let! zk := get z (k + 1) in
              if Bltb zk (fnat q) then advance64 fuel z q (k + 1) else Ok k
  end.
(** font/sdf_builder.go:257-267 *)
Definition query64 (f : list f64) (v : list nat) (z : list f64) (st : nat * list f64) (q : nat) : res (nat * list f64) :=
  let '(k, d) := st in
  let! k := advance64 (length z) z q k in
  let! vk := get v k in
  let! fv := get f vk in
  let! d := set_at d q (fadd (fmul (fsub (fnat q) (fnat vk)) (fsub (fnat q) (fnat vk))) fv) in
  Ok (k, d).
(** font/sdf_builder.go:229-268 edt1d: returns d, v, z. *)
Definition edt1d64 (f d : list f64) (v : list nat) (z : list f64) (n : nat) : res (list f64 * list nat * list f64) :=
  let! v := set_at v 0 0 in
  let! z := set_at z 0 (Bopp INF64) in
  let! z := set_at z 1 INF64 in
  let! (k, v, z) := for_each (push64 f) (seq 1 (n - 1)) (0, v, z) in
  let! (_, d) := for_each (query64 f v z) (seq 0 n) (0, d) in
  Ok (d, v, z).

Record scratch64 := mkScr64 { s6F : list f64; s6D : list f64; s6V : list nat; s6Z : list f64 }.
(** font/sdf_builder.go:204-212 and 216-224 *)
Definition pass64 (at_ : nat -> nat) (g : f64 -> f64) (n : nat) (data : list f64) (s : scratch64) : res (list f64 * scratch64) :=
  let! f := for_each (fun f i => let! a := get data (at_ i) in set_at f i a) (seq 0 n) (s6F s) in
  let! (d, v, z) := edt1d64 f (s6D s) (s6V s) (s6Z s) n in
  let! data := for_each (fun data i => let! a := get d i in set_at data (at_ i) (g a)) (seq 0 n) data in
  Ok (data, mkScr64 f d v z).
(** font/sdf_builder.go:202-226 edt *)
Definition edt64 (data : list f64) (width height : nat) (s : scratch64) : res (list f64 * scratch64) :=
  let! (data, s) := for_each (fun '(data, s) x => pass64 (fun y => y * width + x) (fun a => a) height data s) (seq 0 width) (data, s) in
  for_each (fun '(data, s) y => pass64 (fun x => y * width + x) fsqrt width data s) (seq 0 height) (data, s).

(** font/sdf_builder.go:162-175, one pixel with 16-bit alpha [a] *)
Definition outer_inner64 (a : Z) : f64 * f64 :=
  let alpha := fdiv (fint a) (fint 65535) in
  if Beqb alpha (fint 1) then (fint 0, INF64)
  else if Beqb alpha (fint 0) then (INF64, fint 0)
  else let o := fmax (fint 0) (fsub half64 alpha) in let i := fmax (fint 0) (fsub alpha half64) in (fmul o o, fmul i i).
(** font/sdf_builder.go:190-194 *)
Definition sdf_byte64 (outer inner radius cutoff : f64) : Z :=
  let d := fsub outer inner in
  let r := Bnearbyint mode_NA (fsub (fint 255) (fmul (fint 255) (fadd (fdiv d radius) cutoff))) in
  fbyte (fmax (fint 0) (fmin (fint 255) r)).
(** font/sdf_builder.go:145-199 CalcSDF; the image is its row-major list of 16-bit alpha values, of length w*h. *)
Definition CalcSDF64 (w h : nat) (alphas : list Z) (radius cutoff : f64) : res (list Z) :=
  let zeros := repeat (fint 0) (w * h) in
  let s := mkScr64 zeros zeros (repeat 0 (w * h)) zeros in
  let! (outer, s) := edt64 (map (fun a => fst (outer_inner64 a)) alphas) w h s in
  let! (inner, s) := edt64 (map (fun a => snd (outer_inner64 a)) alphas) w h s in
  Ok (map (fun '(o, i) => sdf_byte64 o i radius cutoff) (combine outer inner)).
