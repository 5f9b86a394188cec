(** font/sdf_builder.go: the distance transform and the signed distance field, in exact real
    arithmetic.  Array indexes and image sizes are natural numbers (no int overflow). *)
From Coq Require Import ZArith Reals List Lia Lra Bool.
From Verif Require Import GoBase GoArr Num TileR_Model MvtProj_Model.
Import ListNotations.
Open Scope R_scope.

(** font/sdf_builder.go:143 *)
Definition INF : R := 100000000000000000000.

(** font/sdf_builder.go:235-237 getS.  [v] holds whole numbers as float64; here as [nat]. *)
Definition getS (f : list R) (v : list nat) (q k : nat) : res R :=
  let! fq := get f q in
  let! vk := get v k in
  let! fv := get f vk in
  Ok (((fq + INR q * INR q) - (fv + INR vk * INR vk)) / (2 * INR q - 2 * INR vk)).

(** font/sdf_builder.go:239-248: [k--] at 0 makes the next getS index v[-1]. *)
Fixpoint pop (f : list R) (v : list nat) (z : list R) (q k : nat) : res (nat * R) :=
  let! s := getS f v q k in
  let! zk := get z k in
  if Rleb s zk then match k with O => Panic | S k' => pop f v z q k' end
  else Ok (k, s).

(** font/sdf_builder.go:234-255 *)
Definition push_step (f : list R) (st : nat * list nat * list R) (q : nat) : res (nat * list nat * list R) :=
  let '(k, v, z) := st in
  let! (k, s) := pop f v z q k in
  let k := S k in
  let! v := set_at v k q in
  let! z := set_at z k s in
  let! z := set_at z (k + 1) INF in
  Ok (k, v, z).

(** font/sdf_builder.go:258-264 *)
Fixpoint advance (fuel : nat) (z : list R) (q k : nat) : res nat :=
  match fuel with
  | O => NoFuel
  | S fuel => let! zk := get z (k + 1) in
              if Rltb zk (INR q) then advance fuel z q (k + 1) else Ok k
  end.
(** font/sdf_builder.go:257-267 *)
Definition query_step (f : list R) (v : list nat) (z : list R) (st : nat * list R) (q : nat) : res (nat * list R) :=
  let '(k, d) := st in
  let! k := advance (length z) z q k in
  let! vk := get v k in
  let! fv := get f vk in
  let! d := set_at d q ((INR q - INR vk) * (INR q - INR vk) + fv) in
  Ok (k, d).

(** font/sdf_builder.go:229-268 edt1d: returns d, v, z. *)
Definition edt1d (f d : list R) (v : list nat) (z : list R) (n : nat) : res (list R * list nat * list R) :=
  let! v := set_at v 0 0%nat in
  let! z := set_at z 0 (- INF) in
  let! z := set_at z 1 INF in
  let! (k, v, z) := for_each (push_step f) (seq 1 (n - 1)) (0%nat, v, z) in
  let! (_, d) := for_each (query_step f v z) (seq 0 n) (0%nat, d) in
  Ok (d, v, z).

(** Scratch space of edt *)
Record scratch := mkScr { sF : list R; sD : list R; sV : list nat; sZ : list R }.

(** One pass over a line of the grid: cell number i of the line is data[at i]; [g] is applied to the result.
    font/sdf_builder.go:204-212 and 216-224 *)
Definition pass (at_ : nat -> nat) (g : R -> R) (n : nat) (data : list R) (s : scratch) : res (list R * scratch) :=
  let! f := for_each (fun f i => let! a := get data (at_ i) in set_at f i a) (seq 0 n) (sF s) in
  let! (d, v, z) := edt1d f (sD s) (sV s) (sZ s) n in
  let! data := for_each (fun data i => let! a := get d i in set_at data (at_ i) (g a)) (seq 0 n) data in
  Ok (data, mkScr f d v z).

(** font/sdf_builder.go:202-226 edt *)
Definition edt (data : list R) (width height : nat) (s : scratch) : res (list R * scratch) :=
  let! (data, s) := for_each (fun '(data, s) x => pass (fun y => y * width + x)%nat (fun a => a) height data s) (seq 0 width) (data, s) in
  for_each (fun '(data, s) y => pass (fun x => y * width + x)%nat sqrt width data s) (seq 0 height) (data, s).

(** font/sdf_builder.go:162-175, one pixel with 16-bit alpha [a] *)
Definition outer_inner (a : Z) : R * R :=
  let alpha := IZR a / 65535 in
  if Reqb alpha 1 then (0, INF)
  else if Reqb alpha 0 then (INF, 0)
  else (Rmax 0 (1 / 2 - alpha) ^ 2, Rmax 0 (alpha - 1 / 2) ^ 2).

(** font/sdf_builder.go:190-194 *)
Definition sdf_byte (outer inner radius cutoff : R) : Z :=
  let d := outer - inner in
  Z.max 0 (Z.min 255 (RoundHA (255 - 255 * (d / radius + cutoff)))).

(** font/sdf_builder.go:145-199 CalcSDF; the image is its row-major list of 16-bit alpha values, of length w*h. *)
Definition CalcSDF (w h : nat) (alphas : list Z) (radius cutoff : R) : res (list Z) :=
  let s := mkScr (repeat 0 (w * h)) (repeat 0 (w * h)) (repeat 0%nat (w * h)) (repeat 0 (w * h)) in
  let! (outer, s) := edt (map (fun a => fst (outer_inner a)) alphas) w h s in
  let! (inner, s) := edt (map (fun a => snd (outer_inner a)) alphas) w h s in
  Ok (map (fun '(o, i) => sdf_byte o i radius cutoff) (combine outer inner)).
