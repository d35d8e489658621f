(** GeometrySpec.v -- what C51, C61 and C62 say: the binary STL format, IEEE single precision numbers, triangles and planes. *)
From Coq Require Import Reals ZArith Bool List Floats.
From Flocq Require Import Core.
From Verif Require Import Base BaseFacts.
Import ListNotations.

(** ** The STL format: 80 bytes of header, a count, and for each triangle 50 bytes: the normal (12), three vertices (12 each, three little-endian
    IEEE singles), and two bytes of attributes. *)
Definition is_byte (z : Z) : Prop := (0 <= z < 256)%Z.
Definition byte_at (f : list Z) (i : nat) : Z := nth i f 0%Z.
(** The little-endian word at offset [off]. *)
Definition word_at (f : list Z) (off : nat) : Z :=
  (byte_at f off + byte_at f (off + 1) * 2 ^ 8 + byte_at f (off + 2) * 2 ^ 16 + byte_at f (off + 3) * 2 ^ 24)%Z.
Definition announced (f : list Z) : nat := Z.to_nat (word_at f 80).
(** Offset of coordinate [k] of vertex [j] of triangle [i]. *)
Definition coord_offset (i j k : nat) : nat := (84 + 50 * i + 12 + 12 * j + 4 * k)%nat.

(** The four bytes of a word. *)
Definition word_bytes (w : Z) : list Z := [w mod 256; w / 256 mod 256; w / 256 / 256 mod 256; w / 256 / 256 / 256 mod 256]%Z.
(** A triangle as it is written: the normal, the nine words of the vertices, the attributes. *)
Record facet := mk_facet { f_normal : list Z; f_words : list (list Z); f_attr : list Z }.
Definition facet_ok (x : facet) : Prop :=
  length (f_normal x) = 12%nat /\ length (f_attr x) = 2%nat /\ length (f_words x) = 3%nat /\
  (forall v, In v (f_words x) -> length v = 3%nat /\ forall w, In w v -> (0 <= w < 2 ^ 32)%Z).
Definition facet_bytes (x : facet) : list Z := f_normal x ++ flat_map (flat_map word_bytes) (f_words x) ++ f_attr x.
Definition stl_bytes (header : list Z) (fs : list facet) (rest : list Z) : list Z :=
  header ++ word_bytes (Z.of_nat (length fs)) ++ flat_map facet_bytes fs ++ rest.

(** The triangle a facet describes, given the meaning of the words and the unit of length. *)
Definition decode (value : Z -> PrimFloat.float) (s : PrimFloat.float) (x : facet) : pt FNum * pt FNum * pt FNum :=
  let p v := mkpt (N := FNum) (PrimFloat.mul (value (nth 0 v 0%Z)) s) (PrimFloat.mul (value (nth 1 v 0%Z)) s) (PrimFloat.mul (value (nth 2 v 0%Z)) s) in
  (p (nth 0 (f_words x) []), p (nth 1 (f_words x) []), p (nth 2 (f_words x) [])).

(** ** IEEE 754 single precision: the number with bit pattern [w]. *)
Definition sg_sign (w : Z) : R := if Z.testbit w 31 then (-1)%R else 1%R.
Definition sg_exp (w : Z) : Z := Z.land (Z.shiftr w 23) 255.
Definition sg_frac (w : Z) : Z := Z.land w (2 ^ 23 - 1).
Definition sg_value (w : Z) : R :=
  (sg_sign w * if Z.eqb (sg_exp w) 0 then IZR (sg_frac w) * bpow radix2 (-149)
               else (1 + IZR (sg_frac w) * bpow radix2 (-23)) * bpow radix2 (sg_exp w - 127))%R.

(** ** Triangles in space *)
Local Open Scope R_scope.
Definition tri : Type := (pt RNum * pt RNum * pt RNum)%type.
Definition v_a (t : tri) := fst (fst t).
Definition v_b (t : tri) := snd (fst t).
Definition v_c (t : tri) := snd t.
Definition dot3 (u v : pt RNum) : R := px u * px v + py u * py v + pz u * pz v.
Definition minus3 (u v : pt RNum) : pt RNum := mkpt (N := RNum) (px u - px v) (py u - py v) (pz u - pz v).
Definition cross3 (u v : pt RNum) : pt RNum :=
  mkpt (N := RNum) (py u * pz v - pz u * py v) (pz u * px v - px u * pz v) (px u * py v - py u * px v).
(** The normal given by the order of the vertices. *)
Definition normal (t : tri) : pt RNum := cross3 (minus3 (v_b t) (v_a t)) (minus3 (v_c t) (v_a t)).
(** [p] is strictly on the side of the plane of [t] that the normal points away from. *)
Definition behind (t : tri) (p : pt RNum) : Prop := dot3 (minus3 (v_a t) p) (normal t) > 0.
Definition on_plane (t : tri) (q : pt RNum) : Prop := dot3 (minus3 q (v_a t)) (normal t) = 0.
Definition combination (t : tri) (l m n : R) : pt RNum :=
  mkpt (N := RNum) (l * px (v_a t) + m * px (v_b t) + n * px (v_c t)) (l * py (v_a t) + m * py (v_b t) + n * py (v_c t)) (l * pz (v_a t) + m * pz (v_b t) + n * pz (v_c t)).
(** [q] belongs to the (closed) triangle. *)
Definition on_triangle (t : tri) (q : pt RNum) : Prop := exists l m n, 0 <= l /\ 0 <= m /\ 0 <= n /\ l + m + n = 1 /\ q = combination t l m n.
Definition dist2 (p q : pt RNum) : R := dot3 (minus3 p q) (minus3 p q).
(** What a nearest query may answer: a triangle and its point nearest to [p], no triangle having a nearer one. *)
Definition nearest_answer (ts : list tri) (p : pt RNum) (t : tri) (q : pt RNum) : Prop :=
  In t ts /\ on_triangle t q /\ forall t' q', In t' ts -> on_triangle t' q' -> dist2 p q <= dist2 p q'.
(** The solid bounded by the planes of the triangles (a convex part whose normals point outwards). *)
Definition inside_convex (ts : list tri) (p : pt RNum) : Prop := forall t, In t ts -> behind t p.
(** The box [lo, hi] and triangles lying in its faces, with their normals outwards. *)
Definition in_box (lo hi p : pt RNum) : Prop := px lo <= px p <= px hi /\ py lo <= py p <= py hi /\ pz lo <= pz p <= pz hi.
Definition in_open_box (lo hi p : pt RNum) : Prop := px lo < px p < px hi /\ py lo < py p < py hi /\ pz lo < pz p < pz hi.
Definition face_of_box (lo hi : pt RNum) (t : tri) : Prop :=
  (forall v, In v [v_a t; v_b t; v_c t] -> in_box lo hi v) /\
  exists coord : pt RNum -> R, In coord [px; py; pz] /\
    ((coord (v_a t) = coord hi /\ coord (v_b t) = coord hi /\ coord (v_c t) = coord hi /\ coord (normal t) > 0) \/
     (coord (v_a t) = coord lo /\ coord (v_b t) = coord lo /\ coord (v_c t) = coord lo /\ coord (normal t) < 0)).
Definition proper (lo hi : pt RNum) : Prop := px lo < px hi /\ py lo < py hi /\ pz lo < pz hi.
(** The triangles cover the surface of the box. *)
Definition covers_box (lo hi : pt RNum) (ts : list tri) : Prop :=
  forall q, in_box lo hi q -> ~ in_open_box lo hi q -> exists t, In t ts /\ on_triangle t q.

(** ** The vertices of a list of triangles *)
Definition vertices {N : Num} (ts : list (pt N * pt N * pt N)) : list (pt N) := flat_map (fun t => [fst (fst t); snd (fst t); snd t]) ts.

(** [lo] is the smallest number of [l] below the largest finite number, and that number if there is none; not-a-number entries do not count. *)
Definition lowest (l : list PrimFloat.float) (lo : PrimFloat.float) : Prop :=
  (lo = F_max /\ forall y, In y l -> PrimFloat.ltb y F_max = false) \/
  (In lo l /\ PrimFloat.ltb lo F_max = true /\ forall y, In y l -> PrimFloat.ltb y lo = false).
Definition highest (l : list PrimFloat.float) (hi : PrimFloat.float) : Prop :=
  (hi = PrimFloat.opp F_max /\ forall y, In y l -> PrimFloat.ltb (PrimFloat.opp F_max) y = false) \/
  (In hi l /\ PrimFloat.ltb (PrimFloat.opp F_max) hi = true /\ forall y, In y l -> PrimFloat.ltb hi y = false).
