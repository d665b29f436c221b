(** Model of containers/octree/OctreeDirection.h: faces, edges and vertices of a cube
    and the lookup tables.  The omega values O, OO, OOO are [None], or the end of a
    list of octants. *)
From Coq Require Import List Bool.
Import ListNotations.

(** OctreeDirection.h:21-29. *)
Inductive Face := fL | fR | fD | fU | fB | fF.
(** OctreeDirection.h:60-74. *)
Inductive Edge := LD | LU | LB | LF | RD | RU | RB | RF | DB | DF | UB | UF.
(** OctreeDirection.h:79-89; Octant is the same type, line 133. *)
Inductive Vertex := LDB | LDF | LUB | LUF | RDB | RDF | RUB | RUF.
(** [Any], OctreeDirection.h:15: the values of the three enums are different. *)
Inductive Dir := Dface (f : Face) | Dedge (e : Edge) | Dvertex (v : Vertex).

(** Tables::faces, edges, vertices, OctreeDirection.h:95-108. *)
Definition faces : list Face := [fL; fR; fD; fU; fB; fF].
Definition edges : list Edge := [LD; LU; LB; LF; RD; RU; RB; RF; DB; DF; UB; UF].
Definition vertices : list Vertex := [LDB; LDF; LUB; LUF; RDB; RDF; RUB; RUF].

(** vertexToIndex, OctreeDirection.h:117-129: the position in [vertices]. *)
Definition vertexToIndex (v : Vertex) : nat :=
  match v with LDB => 0 | LDF => 1 | LUB => 2 | LUF => 3 | RDB => 4 | RDF => 5 | RUB => 6 | RUF => 7 end.

Definition rowAt {A} (row : list A) (default : A) (octant : Vertex) : A := nth (vertexToIndex octant) row default.

(** ADJ, OctreeDirection.h:180-209, 406-420. *)
Definition adjRow (d : Dir) : list bool :=
  match d with
  | Dface fL => [true; true; true; true; false; false; false; false]
  | Dface fR => [false; false; false; false; true; true; true; true]
  | Dface fD => [true; true; false; false; true; true; false; false]
  | Dface fU => [false; false; true; true; false; false; true; true]
  | Dface fB => [true; false; true; false; true; false; true; false]
  | Dface fF => [false; true; false; true; false; true; false; true]
  | Dedge LD => [true; true; false; false; false; false; false; false]
  | Dedge LU => [false; false; true; true; false; false; false; false]
  | Dedge LB => [true; false; true; false; false; false; false; false]
  | Dedge LF => [false; true; false; true; false; false; false; false]
  | Dedge RD => [false; false; false; false; true; true; false; false]
  | Dedge RU => [false; false; false; false; false; false; true; true]
  | Dedge RB => [false; false; false; false; true; false; true; false]
  | Dedge RF => [false; false; false; false; false; true; false; true]
  | Dedge DB => [true; false; false; false; true; false; false; false]
  | Dedge DF => [false; true; false; false; false; true; false; false]
  | Dedge UB => [false; false; true; false; false; false; true; false]
  | Dedge UF => [false; false; false; true; false; false; false; true]
  | Dvertex LDB => [true; false; false; false; false; false; false; false]
  | Dvertex LDF => [false; true; false; false; false; false; false; false]
  | Dvertex LUB => [false; false; true; false; false; false; false; false]
  | Dvertex LUF => [false; false; false; true; false; false; false; false]
  | Dvertex RDB => [false; false; false; false; true; false; false; false]
  | Dvertex RDF => [false; false; false; false; false; true; false; false]
  | Dvertex RUB => [false; false; false; false; false; false; true; false]
  | Dvertex RUF => [false; false; false; false; false; false; false; true]
  end.
Definition ADJ (d : Dir) (octant : Vertex) : bool := rowAt (adjRow d) false octant.

(** REFLECT, OctreeDirection.h:216-245, 430-444. *)
Definition reflectRow (d : Dir) : list Vertex :=
  match d with
  | Dface fL => [RDB; RDF; RUB; RUF; LDB; LDF; LUB; LUF]
  | Dface fR => [RDB; RDF; RUB; RUF; LDB; LDF; LUB; LUF]
  | Dface fD => [LUB; LUF; LDB; LDF; RUB; RUF; RDB; RDF]
  | Dface fU => [LUB; LUF; LDB; LDF; RUB; RUF; RDB; RDF]
  | Dface fB => [LDF; LDB; LUF; LUB; RDF; RDB; RUF; RUB]
  | Dface fF => [LDF; LDB; LUF; LUB; RDF; RDB; RUF; RUB]
  | Dedge LD => [RUB; RUF; RDB; RDF; LUB; LUF; LDB; LDF]
  | Dedge LU => [RUB; RUF; RDB; RDF; LUB; LUF; LDB; LDF]
  | Dedge LB => [RDF; RDB; RUF; RUB; LDF; LDB; LUF; LUB]
  | Dedge LF => [RDF; RDB; RUF; RUB; LDF; LDB; LUF; LUB]
  | Dedge RD => [RUB; RUF; RDB; RDF; LUB; LUF; LDB; LDF]
  | Dedge RU => [RUB; RUF; RDB; RDF; LUB; LUF; LDB; LDF]
  | Dedge RB => [RDF; RDB; RUF; RUB; LDF; LDB; LUF; LUB]
  | Dedge RF => [RDF; RDB; RUF; RUB; LDF; LDB; LUF; LUB]
  | Dedge DB => [LUF; LUB; LDF; LDB; RUF; RUB; RDF; RDB]
  | Dedge DF => [LUF; LUB; LDF; LDB; RUF; RUB; RDF; RDB]
  | Dedge UB => [LUF; LUB; LDF; LDB; RUF; RUB; RDF; RDB]
  | Dedge UF => [LUF; LUB; LDF; LDB; RUF; RUB; RDF; RDB]
  | Dvertex LDB => [RUF; RUB; RDF; RDB; LUF; LUB; LDF; LDB]
  | Dvertex LDF => [RUF; RUB; RDF; RDB; LUF; LUB; LDF; LDB]
  | Dvertex LUB => [RUF; RUB; RDF; RDB; LUF; LUB; LDF; LDB]
  | Dvertex LUF => [RUF; RUB; RDF; RDB; LUF; LUB; LDF; LDB]
  | Dvertex RDB => [RUF; RUB; RDF; RDB; LUF; LUB; LDF; LDB]
  | Dvertex RDF => [RUF; RUB; RDF; RDB; LUF; LUB; LDF; LDB]
  | Dvertex RUB => [RUF; RUB; RDF; RDB; LUF; LUB; LDF; LDB]
  | Dvertex RUF => [RUF; RUB; RDF; RDB; LUF; LUB; LDF; LDB]
  end.
Definition REFLECT (d : Dir) (octant : Vertex) : Vertex := rowAt (reflectRow d) octant octant.

(** COMMON_FACE, OctreeDirection.h:252-275, 454-468; only called for edges and vertices. *)
Definition commonFaceRow (d : Dir) : list (option Face) :=
  match d with
  | Dface _ => []
  | Dedge LD => [None; None; Some fL; Some fL; Some fD; Some fD; None; None]
  | Dedge LU => [Some fL; Some fL; None; None; None; None; Some fU; Some fU]
  | Dedge LB => [None; Some fL; None; Some fL; Some fB; None; Some fB; None]
  | Dedge LF => [Some fL; None; Some fL; None; None; Some fF; None; Some fF]
  | Dedge RD => [Some fD; Some fD; None; None; None; None; Some fR; Some fR]
  | Dedge RU => [None; None; Some fU; Some fU; Some fR; Some fR; None; None]
  | Dedge RB => [Some fB; None; Some fB; None; None; Some fR; None; Some fR]
  | Dedge RF => [None; Some fF; None; Some fF; Some fR; None; Some fR; None]
  | Dedge DB => [None; Some fD; Some fB; None; None; Some fD; Some fB; None]
  | Dedge DF => [Some fD; None; None; Some fF; Some fD; None; None; Some fF]
  | Dedge UB => [Some fB; None; None; Some fU; Some fB; None; None; Some fU]
  | Dedge UF => [None; Some fF; Some fU; None; None; Some fF; Some fU; None]
  | Dvertex LDB => [None; None; None; Some fL; None; Some fD; Some fB; None]
  | Dvertex LDF => [None; None; Some fL; None; Some fD; None; None; Some fF]
  | Dvertex LUB => [None; Some fL; None; None; Some fB; None; None; Some fU]
  | Dvertex LUF => [Some fL; None; None; None; None; Some fF; Some fU; None]
  | Dvertex RDB => [None; Some fD; Some fB; None; None; None; None; Some fR]
  | Dvertex RDF => [Some fD; None; None; Some fF; None; None; Some fR; None]
  | Dvertex RUB => [Some fB; None; None; Some fU; None; Some fR; None; None]
  | Dvertex RUF => [None; Some fF; Some fU; None; Some fR; None; None; None]
  end.
Definition COMMON_FACE (d : Dir) (octant : Vertex) : option Face := rowAt (commonFaceRow d) None octant.

(** COMMON_EDGE, OctreeDirection.h:282-293, 478-496. *)
Definition commonEdgeRow (v : Vertex) : list (option Edge) :=
  match v with
  | LDB => [None; Some LD; Some LB; None; Some DB; None; None; None]
  | LDF => [Some LD; None; None; Some LF; None; Some DF; None; None]
  | LUB => [Some LB; None; None; Some LU; None; None; Some UB; None]
  | LUF => [None; Some LF; Some LU; None; None; None; None; Some UF]
  | RDB => [Some DB; None; None; None; None; Some RD; Some RB; None]
  | RDF => [None; Some DF; None; None; Some RD; None; None; Some RF]
  | RUB => [None; None; Some UB; None; Some RB; None; None; Some RU]
  | RUF => [None; None; None; Some UF; None; Some RF; Some RU; None]
  end.
Definition COMMON_EDGE (v : Vertex) (octant : Vertex) : option Edge := rowAt (commonEdgeRow v) None octant.

(** getOppositeDirection, OctreeDirection.h:300-329, 504-518. *)
Definition getOppositeDirection (d : Dir) : Dir :=
  match d with
  | Dface fL => Dface fR
  | Dface fR => Dface fL
  | Dface fD => Dface fU
  | Dface fU => Dface fD
  | Dface fB => Dface fF
  | Dface fF => Dface fB
  | Dedge LD => Dedge RU
  | Dedge LU => Dedge RD
  | Dedge LB => Dedge RF
  | Dedge LF => Dedge RB
  | Dedge RD => Dedge LU
  | Dedge RU => Dedge LD
  | Dedge RB => Dedge LF
  | Dedge RF => Dedge LB
  | Dedge DB => Dedge UF
  | Dedge DF => Dedge UB
  | Dedge UB => Dedge DF
  | Dedge UF => Dedge DB
  | Dvertex LDB => Dvertex RUF
  | Dvertex LDF => Dvertex RUB
  | Dvertex LUB => Dvertex RDF
  | Dvertex LUF => Dvertex RDB
  | Dvertex RDB => Dvertex LUF
  | Dvertex RDF => Dvertex LUB
  | Dvertex RUB => Dvertex LDF
  | Dvertex RUF => Dvertex LDB
  end.

(** getAllowedDirections, OctreeDirection.h:336-365, 526-550: the entries before OOO. *)
Definition getAllowedDirections (d : Dir) : list Vertex :=
  match d with
  | Dface fL => [LDB; LDF; LUB; LUF]
  | Dface fR => [RDB; RDF; RUB; RUF]
  | Dface fD => [LDB; LDF; RDB; RDF]
  | Dface fU => [LUB; LUF; RUB; RUF]
  | Dface fB => [LDB; LUB; RDB; RUB]
  | Dface fF => [LDF; LUF; RDF; RUF]
  | Dedge LD => [LDB; LDF]
  | Dedge LU => [LUB; LUF]
  | Dedge LB => [LDB; LUB]
  | Dedge LF => [LDF; LUF]
  | Dedge RD => [RDB; RDF]
  | Dedge RU => [RUB; RUF]
  | Dedge RB => [RDB; RUB]
  | Dedge RF => [RDF; RUF]
  | Dedge DB => [LDB; RDB]
  | Dedge DF => [LDF; RDF]
  | Dedge UB => [LUB; RUB]
  | Dedge UF => [LUF; RUF]
  | Dvertex LDB => [LDB]
  | Dvertex LDF => [LDF]
  | Dvertex LUB => [LUB]
  | Dvertex LUF => [LUF]
  | Dvertex RDB => [RDB]
  | Dvertex RDF => [RDF]
  | Dvertex RUB => [RUB]
  | Dvertex RUF => [RUF]
  end.
