(** Specification for the end-to-end properties C49 and C50: decorated crystals as functions on points of space, when two
    of them are the same up to a symmetry of the crystal, and what a list of labels (one per site of a supercell, as in a
    row of the enumeration) stands for.  Nothing here refers to the model of the code. *)
From Coq Require Import List Arith ZArith Lia Bool Permutation.
From Verif Require Import Spec Mat3 LatSpec.
Import ListNotations.
Local Open Scope Z_scope.

(** What sits on a point: (direction of displacement or a negative number, species); only points of the crystal count. *)
Definition decoration : Type := vec -> Z * Z.
(** [k] is a period: the decoration repeats after the lattice vector [k]. *)
Definition period (D : Z) (bas : list vec) (f : decoration) (k : vec) : Prop :=
  forall x, crystal_point D bas x -> f (vadd x (vscale D k)) = f x.
(** It repeats (at least) with the superlattice H, or exactly with it. *)
Definition periodic (D : Z) (bas : list vec) (H : mat) (f : decoration) : Prop :=
  forall k, in_lattice H k -> period D bas f k.
Definition primitive (D : Z) (bas : list vec) (H : mat) (f : decoration) : Prop :=
  forall k, in_lattice H k <-> period D bas f k.
(** What one supercell of H contains, as a list in any order. *)
Definition contents (D : Z) (bas : list vec) (H : mat) (f : decoration) (c : list (Z * Z)) : Prop :=
  exists pts, transversal (crystal_point D bas) (fun x y => exists k, in_lattice H k /\ y = vadd x (vscale D k)) pts /\
    Permutation (map f pts) c.

(** What a rotation makes of what sits on a point: it turns the displacement. *)
Definition rotated (R : mat) (a b : Z * Z) : Prop :=
  snd b = snd a /\
  if has_arrow a
  then has_arrow b = true /\
       nth (Z.to_nat (fst b)) directions (0, 0, 0) = mvec R (nth (Z.to_nat (fst a)) directions (0, 0, 0))
  else fst b = fst a.
(** The symmetry operation x -> C x + s, with Cartesian matrix R, makes f' of f. *)
Definition carries (D : Z) (bas : list vec) (C R : mat) (s : vec) (f f' : decoration) : Prop :=
  forall x, crystal_point D bas x -> rotated R (f x) (f' (affine C s x)).
(** The same structure up to a symmetry operation of the crystal. *)
Definition same_structure (pg : list (mat * mat)) (D : Z) (bas : list vec) (f f' : decoration) : Prop :=
  exists C R s, In (C, R) pg /\ crystal_symmetry D bas C s /\ carries D bas C R s f f'.
(** ... by one that keeps the superlattice H. *)
Definition same_in_supercell (pg : list (mat * mat)) (D : Z) (bas : list vec) (H : mat) (f f' : decoration) : Prop :=
  exists C R s, supercell_symmetry pg D bas H C R s /\ carries D bas C R s f f'.

(** The list [w] describes [f] in the supercell whose sites are numbered by L and the Smith normal form [diag]. *)
Definition describes (D : Z) (bas : list vec) (L : mat) (diag : vec) (w : list (Z * Z)) (f : decoration) : Prop :=
  forall x i, is_site D bas L diag x i -> f x = nth i w (-1, 0).
(** Direction numbers below 6. *)
Definition six_directions (D : Z) (bas : list vec) (f : decoration) : Prop :=
  forall x, crystal_point D bas x -> fst (f x) < 6.
Definition no_directions (D : Z) (bas : list vec) (f : decoration) : Prop :=
  forall x, crystal_point D bas x -> fst (f x) = -1.

(** A catalogue of the decorations [all], up to [same]: every entry means something, nothing outside [all], every
    decoration in [all] is the same as something an entry means, and no two entries mean the same. *)
Definition catalogue {W : Type} (all : decoration -> Prop) (same : decoration -> decoration -> Prop)
    (means : W -> decoration -> Prop) (l : list W) : Prop :=
  (forall w, In w l -> exists f, means w f) /\
  (forall w f, In w l -> means w f -> all f) /\
  (forall f, all f -> exists w f', In w l /\ means w f' /\ same f f') /\
  ForallOrdPairs (fun v w => forall f g, means v f -> means w g -> ~ same f g) l.
(** The decorations that repeat with H, have no displacements and contain [c] per supercell; and those that contain [c]
    up to the directions of the displacements, of which there are six. *)
Definition plain_structures (D : Z) (bas : list vec) (H : mat) (c : list (Z * Z)) (f : decoration) : Prop :=
  periodic D bas H f /\ contents D bas H f c.
Definition arrow_structures (D : Z) (bas : list vec) (H : mat) (c : list (Z * Z)) (f : decoration) : Prop :=
  periodic D bas H f /\ contents D bas H (fun x => skeleton (f x)) (map skeleton c) /\ six_directions D bas f.
(** The decorations whose primitive cell has [n] parent cells and contents [c]. *)
Definition size_structures (D : Z) (bas : list vec) (n : Z) (c : list (Z * Z)) (f : decoration) : Prop :=
  exists H, Z.abs (mdet H) = n /\ primitive D bas H f /\ contents D bas H f c.
