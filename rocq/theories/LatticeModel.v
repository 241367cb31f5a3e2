(** * Model of mythical::charge_transport::Cuboid
    src/libmythical/charge_transport/cuboid_lattice.cpp (line numbers below),
    include/mythical/charge_transport/cuboid_lattice.hpp

    [int] arithmetic is on Z with every intermediate result checked: overflow
    and division by zero are [Bad Undefined].  Doubles are an arbitrary [Num]. *)
From Coq Require Import ZArith List Bool.
From Verif Require Import Base Num.
Import ListNotations.
Open Scope Z_scope.

(** boundarysettings.hpp *)
Inductive boundary := Fixed | Periodic.
(** cuboid_lattice.hpp:25-29 *)
Inductive plane := XY | YZ | XZ.

(** C++ [/] and [%] on int *)
Definition idiv (a b : Z) : res Z := if b =? 0 then Bad Undefined else Ok (Z.quot a b).
Definition imod (a b : Z) : res Z := if b =? 0 then Bad Undefined else Ok (Z.rem a b).

Section Lattice.
Context {N : Num}.

(** Members (cuboid_lattice.hpp).  The random generator is not a member here:
    its outputs are arguments of [l_getRandomSite]. *)
Record lattice := mkLat {
  l_len : Z; l_wid : Z; l_hei : Z; l_total : Z; l_spacing : num;
  l_xb : boundary; l_yb : boundary; l_zb : boundary }.

(** checkBounds_, 56-69 *)
Definition check_bounds (L W H : Z) : res unit :=
  if L <? 0 then Err InvalidArgument else
  if W <? 0 then Err InvalidArgument else
  if H <? 0 then Err InvalidArgument else Ok tt.

(** Constructor, 214-228 (the other two, 187-212, pass Fixed and spacing 1.0).
    total_ is computed in the initialiser list, before the bounds are checked.
    setDistributions_ with an empty range is not checked by the library: the
    model lets the constructor return and makes the draw undefined. *)
Definition l_new (L W H : Z) (sp : num) (xb yb zb : boundary) : res lattice :=
  lw <-! chk (L * W); t <-! chk (lw * H);
  _ <-! check_bounds L W H;
  Ok (mkLat L W H t sp xb yb zb).

Section Members.
Variable la : lattice.
Let L := l_len la.
Let W := l_wid la.
Let H := l_hei la.

(** 17-46 *)
Definition check_pos (v size : Z) : res unit :=
  if v <? 0 then Err InvalidArgument else if v >=? size then Err InvalidArgument else Ok tt.

(** 48-54 *)
Definition l_getPos_ (index : Z) : res (Z * Z * Z) :=
  lw <-! chk (L * W);
  z <-! idiv index lw;
  lwz <-! chk (lw * z);
  index' <-! chk (index - lwz);
  y <-! idiv index' L;
  x <-! imod index' L;
  Ok (x, y, z).

(** 71-80 *)
Definition check_index (index : Z) : res unit :=
  if index <? 0 then Err InvalidArgument
  else if index >=? l_total la then Err InvalidArgument else Ok tt.

(** 82-84 *)
Definition l_getIndex_ (x y z : Z) : res Z :=
  zl <-! chk (z * L); zlw <-! chk (zl * W); yl <-! chk (y * L);
  s <-! chk (zlw + yl); chk (s + x).

(** 86-99 *)
Definition l_getDistance_ (x1 y1 z1 x2 y2 z2 : Z) : res num :=
  dx <-! chk (x1 - x2); dy <-! chk (y1 - y2); dz <-! chk (z1 - z2);
  xx <-! chk (dx * dx); yy <-! chk (dy * dy); zz <-! chk (dz * dz);
  s <-! chk (xx + yy); t <-! chk (s + zz);
  Ok (nmul (nsqrt (nofZ t)) (l_spacing la)).

(** 157-176 *)
Definition l_periodic (v size : Z) : res Z :=
  if v <? 0 then chk (v + size) else imod v size.

(** the position used for coordinate [v] inside the neighbour loops
    (e.g. 389-392): wrapped if periodic, as is otherwise *)
Definition l_wrap (b : boundary) (v size : Z) : res Z :=
  match b with Periodic => l_periodic v size | Fixed => Ok v end.

(** for (int v = lo; v <= hi; ++v): the last increment may overflow *)
Fixpoint zseq (lo : Z) (n : nat) : list Z :=
  match n with O => [] | S n' => lo :: zseq (lo + 1) n' end.
Definition zrange (lo hi : Z) : list Z := zseq lo (Z.to_nat (hi - lo + 1)).
Fixpoint rflat {A} (l : list Z) (f : Z -> res (list A)) : res (list A) :=
  match l with
  | [] => Ok []
  | v :: l' => a <-! f v; b <-! rflat l' f; Ok (a ++ b)
  end.
Definition rloop {A} (lo hi : Z) (f : Z -> res (list A)) : res (list A) :=
  r <-! rflat (zrange lo hi) f;
  if lo <=? hi then (_ <-! chk (hi + 1); Ok r) else Ok r.

(** The triple loop shared by 121-152, 388-419 and 466-498: visits the box
    around [(x,y,z)] and yields (site, distance) for every visit of a site
    other than [index] at a distance of at most the cutoff. *)
Definition in_size (v size : Z) : bool := (v >=? 0) && (v <? size).
Definition l_box (index x y z xlo xhi ylo yhi zlo zhi : Z) (cutoff : num) : res (list (Z * num)) :=
  rloop xlo xhi (fun xi =>
    xp <-! l_wrap (l_xb la) xi L;
    if in_size xp L then
      rloop ylo yhi (fun yi =>
        yp <-! l_wrap (l_yb la) yi W;
        if in_size yp W then
          rloop zlo zhi (fun zi =>
            zp <-! l_wrap (l_zb la) zi H;
            if in_size zp H then
              d <-! l_getDistance_ xi yi zi x y z;
              if nleb d cutoff then
                n <-! l_getIndex_ xp yp zp;
                if negb (n =? index) then Ok [(n, d)] else Ok []
              else Ok []
            else Ok [])
        else Ok [])
    else Ok []).

(** number of sites within the cutoff along an axis: 104, 372, 445 *)
Definition l_num_sites (cutoff : num) : res Z :=
  match ntrunc (nfloor (ndiv cutoff (l_spacing la))) with
  | Some n => Ok n
  | None => Bad Undefined
  end.

(** 117-119, 384-386: reserve takes a size_t, so a negative int throws *)
Definition l_reserve (n : Z) : res unit :=
  a <-! chk (2 * n); b <-! chk (a * 2); c <-! chk (b * n); d <-! chk (c * 2); e <-! chk (d * n);
  if e <? 0 then Err LengthError else Ok tt.

(** 101-154 *)
Definition l_getNeighborDistances_ (x y z : Z) (cutoff : num) : res (list (Z * num)) :=
  n <-! l_num_sites cutoff;
  index <-! l_getIndex_ x y z;
  xlo <-! chk (x - n); xhi <-! chk (x + n);
  ylo <-! chk (y - n); yhi <-! chk (y + n);
  zlo <-! chk (z - n); zhi <-! chk (z + n);
  _ <-! l_reserve n;
  l_box index x y z xlo xhi ylo yhi zlo zhi cutoff.

(** 250-274 *)
Definition l_coord (b : boundary) (v size : Z) : res Z :=
  match b with
  | Periodic => l_periodic v size
  | Fixed => _ <-! check_pos v size; Ok v
  end.
Definition l_getIndex (x y z : Z) : res Z :=
  xp <-! l_coord (l_xb la) x L;
  yp <-! l_coord (l_yb la) y W;
  zp <-! l_coord (l_zb la) z H;
  l_getIndex_ xp yp zp.

(** 276-283 *)
Definition l_getIndex_vec (v : list Z) : res Z :=
  match v with
  | [x; y; z] => l_getIndex x y z
  | _ => Err InvalidArgument
  end.

(** std::uniform_int_distribution(0,size-1) applied to the generator: [raw] is
    whatever the generator produced; every value of the range can result. *)
Definition draw_int (size raw : Z) : res Z :=
  if size <=? 0 then Bad Undefined else Ok (raw mod size).

(** 285-318.  The tests [p < 0 && p >= size] are never true. *)
Definition never_out (p size : Z) : res unit :=
  if (p <? 0) && (p >=? size) then Err InvalidArgument else Ok tt.
Definition l_getRandomSite (pl : plane) (p raw1 raw2 : Z) : res Z :=
  match pl with
  | YZ => _ <-! never_out p L; y <-! draw_int W raw1; z <-! draw_int H raw2; l_getIndex p y z
  | XZ => _ <-! never_out p W; x <-! draw_int L raw1; z <-! draw_int H raw2; l_getIndex x p z
  | XY => _ <-! never_out p H; x <-! draw_int L raw1; y <-! draw_int H raw2; l_getIndex x y p
  end.

(** the guard of 321, 332, 345, 358 *)
Definition check_upper (index : Z) : res unit :=
  lw <-! chk (L * W); t <-! chk (lw * H);
  if index >=? t then Err InvalidArgument else Ok tt.

(** 320-329 *)
Definition l_getPosition (index : Z) : res (Z * Z * Z) :=
  _ <-! check_upper index; l_getPos_ index.
(** 331-342 *)
Definition l_getX (index : Z) : res Z :=
  _ <-! check_upper index;
  lw <-! chk (L * W); z <-! idiv index lw; lwz <-! chk (lw * z); i' <-! chk (index - lwz);
  imod i' L.
(** 344-355 *)
Definition l_getY (index : Z) : res Z :=
  _ <-! check_upper index;
  lw <-! chk (L * W); z <-! idiv index lw; lwz <-! chk (lw * z); i' <-! chk (index - lwz);
  idiv i' L.
(** 357-366 *)
Definition l_getZ (index : Z) : res Z :=
  _ <-! check_upper index; lw <-! chk (L * W); idiv index lw.

(** 368-421; same loops as getNeighborDistances_, keeping the sites only.
    Simplification: the call order of num_sites and getIndex_ does not matter,
    getNeighbors compares with [index] itself. *)
Definition l_getNeighbors (index : Z) (cutoff : num) : res (list Z) :=
  _ <-! check_index index;
  p <-! l_getPosition index;
  let '(x, y, z) := p in
  n <-! l_num_sites cutoff;
  xlo <-! chk (x - n); xhi <-! chk (x + n);
  ylo <-! chk (y - n); yhi <-! chk (y + n);
  zlo <-! chk (z - n); zhi <-! chk (z + n);
  _ <-! l_reserve n;
  b <-! l_box index x y z xlo xhi ylo yhi zlo zhi cutoff;
  Ok (map fst b).

(** 423-428 *)
Definition l_getNeighborDistances (index : Z) (cutoff : num) : res (list (Z * num)) :=
  _ <-! check_index index;
  p <-! l_getPosition index;
  let '(x, y, z) := p in l_getNeighborDistances_ x y z cutoff.

(** 430-440 *)
Definition l_getNeighborDistances_pos (pos : list Z) (cutoff : num) : res (list (Z * num)) :=
  match pos with
  | [x; y; z] =>
      _ <-! check_pos x L; _ <-! check_pos y W; _ <-! check_pos z H;
      l_getNeighborDistances_ x y z cutoff
  | _ => Err InvalidArgument
  end.

(** 503-535 *)
Definition l_min_image (b : boundary) (v1 v2 size old : Z) : res Z :=
  match b with
  | Fixed => Ok old
  | Periodic =>
      d <-! chk (v2 - v1);
      a <-! chk (d + size); a' <-! chk (Z.abs a);
      c <-! chk (d - size); c' <-! chk (Z.abs c);
      d' <-! chk (Z.abs d);
      Ok (Z.min (Z.min a' c') d')
  end.
Definition l_getSmallestDistance (i1 i2 : Z) : res num :=
  _ <-! check_index i1; _ <-! check_index i2;
  p1 <-! l_getPos_ i1; p2 <-! l_getPos_ i2;
  let '(x1, y1, z1) := p1 in
  let '(x2, y2, z2) := p2 in
  x2' <-! l_min_image (l_xb la) x1 x2 L x2;
  y2' <-! l_min_image (l_yb la) y1 y2 W y2;
  (* 526-527 read at(1) again, pos_2.at(1) possibly already replaced *)
  z2' <-! l_min_image (l_zb la) y1 y2' H z2;
  l_getDistance_ x1 y1 z1 x2' y2' z2'.
End Members.

(** 442-501: the whole-lattice table.  For every site the box of sites with
    no larger coordinates; each visit writes both entries. *)
Section Table.
Context {I : Impl}.
Variable la : lattice.

Definition tab_set (m : umap (umap num)) (i j : Z) (d : num) : umap (umap num) :=
  let r := match ulookup i m with Some r => r | None => [] end in
  let m' := match ulookup i m with Some _ => m | None => uset m i [] end in
  uset m' i (uset r j d).

Definition l_visits (index : Z) (cutoff : num) : res (list (Z * num)) :=
  p <-! l_getPos_ la index;
  let '(x, y, z) := p in
  n <-! l_num_sites la cutoff;
  xlo <-! chk (x - n); ylo <-! chk (y - n); zlo <-! chk (z - n);
  l_box la index x y z xlo x ylo y zlo z cutoff.

Fixpoint l_table_from (indices : list Z) (cutoff : num) (m : umap (umap num)) : res (umap (umap num)) :=
  match indices with
  | [] => Ok m
  | index :: r =>
      vs <-! l_visits index cutoff;
      l_table_from r cutoff
        (fold_left (fun m v => tab_set (tab_set m (fst v) index (snd v)) index (fst v) (snd v)) vs m)
  end.

Definition l_distanceTable (cutoff : num) : res (umap (umap num)) :=
  _ <-! l_num_sites la cutoff;
  lw <-! chk (l_len la * l_wid la); t <-! chk (lw * l_hei la);
  l_table_from (zrange 0 (t - 1)) cutoff [].
End Table.
End Lattice.
