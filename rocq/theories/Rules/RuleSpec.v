(** * What a rule program means

    The meaning of the rule language as its documentation describes it (RuleBasedTuning.h, "Summary of the
    Rule Language"), independent of the compiler and the virtual machine: values of expressions, the
    configuration orders that a program applies, the configurations that a pattern describes, and a type
    discipline for programs. *)

From Coq Require Import ZArith List Bool String.
From Verif.Rules Require Import RuleModel.
Import ListNotations.
Open Scope Z_scope.

Section Spec.
Variable F : doubles.
Notation cell := (cell F).
Notation pexpr := (pexpr F).
Notation pstmt := (pstmt F).

(** ** Values of expressions *)

(** Two numbers of which at least one is a double, as doubles. *)
Inductive asDoubles : cell -> cell -> D F -> D F -> Prop :=
| AdDD : forall a b, asDoubles (VDouble a) (VDouble b) a b
| AdDS : forall a b, asDoubles (VDouble a) (VSize b) a (dOfSize F b)
| AdSD : forall a b, asDoubles (VSize a) (VDouble b) (dOfSize F a) b.

Definition isZero (v : cell) : bool :=
  match v with VSize n => n =? 0 | VDouble d => dEq F d (dZero F) | _ => false end.

(** [apply o l r v]: the operator gives [v] for these operands.  Unsigned integers are 64 bits wide; a
    division by zero gives the greatest value of the type of the quotient. *)
Inductive apply : bop -> cell -> cell -> cell -> Prop :=
| ApAnd : forall a b, apply OAnd (VBool a) (VBool b) (VBool (a && b))
| ApOr : forall a b, apply OOr (VBool a) (VBool b) (VBool (a || b))
| ApLessSize : forall a b, apply OLess (VSize a) (VSize b) (VBool (a <? b))
| ApLessDouble : forall l r a b, asDoubles l r a b -> apply OLess l r (VBool (dLt F a b))
| ApLessBool : forall a b, apply OLess (VBool a) (VBool b) (VBool (negb a && b))
| ApLessOption : forall k a b, apply OLess (VOption k a) (VOption k b) (VBool (Nat.ltb a b))
| ApGreater : forall l r v, apply OLess r l v -> apply OGreater l r v
| ApAddSize : forall a b, apply OAdd (VSize a) (VSize b) (VSize ((a + b) mod 2 ^ 64))
| ApSubSize : forall a b, apply OSub (VSize a) (VSize b) (VSize ((a - b) mod 2 ^ 64))
| ApMulSize : forall a b, apply OMul (VSize a) (VSize b) (VSize ((a * b) mod 2 ^ 64))
| ApDivSize : forall a b, b <> 0 -> apply ODiv (VSize a) (VSize b) (VSize (a / b))
| ApDivSizeZero : forall a, apply ODiv (VSize a) (VSize 0) (VSize (2 ^ 64 - 1))
| ApAddDouble : forall l r a b, asDoubles l r a b -> apply OAdd l r (VDouble (dAdd F a b))
| ApSubDouble : forall l r a b, asDoubles l r a b -> apply OSub l r (VDouble (dSub F a b))
| ApMulDouble : forall l r a b, asDoubles l r a b -> apply OMul l r (VDouble (dMul F a b))
| ApDivDouble : forall l r a b, asDoubles l r a b -> isZero r = false -> apply ODiv l r (VDouble (dDiv F a b))
| ApDivDoubleZero : forall l r a b, asDoubles l r a b -> isZero r = true -> apply ODiv l r (VDouble (dMax F)).

(** The values of the variables: the live infos and what has been defined since. *)
Definition env : Type := string -> option cell.

Inductive evals (rho : env) : pexpr -> cell -> Prop :=
| EvLit : forall v, evals rho (PLit v) v
| EvVar : forall x v, rho x = Some v -> evals rho (PVar x) v
| EvNot : forall e b, evals rho e (VBool b) -> evals rho (PNot e) (VBool (negb b))
| EvBin : forall o a b l r v, evals rho a l -> evals rho b r -> apply o l r v -> evals rho (PBin o a b) v
| EvParen : forall e v, evals rho e v -> evals rho (PParen e) v.

(** ** The orders that a program applies *)

(** A pattern with the names of lists replaced by their values. *)
Definition spattern : Type := list (prop * list cell).

Record sorder : Type := SOrd { better : spattern; worse : spattern; sameProps : list prop }.

Definition lists : Type := string -> option (list cell).

Definition update {A} (f : string -> option A) (x : string) (a : A) : string -> option A :=
  fun y => if String.eqb y x then Some a else f y.

Inductive denotes (ls : lists) : ppattern F -> spattern -> Prop :=
| DnNil : denotes ls [] []
| DnLit : forall p v l sl, denotes ls l sl -> denotes ls ((p, PValLit v) :: l) ((p, [v]) :: sl)
| DnList : forall p x vs l sl, ls x = Some vs -> denotes ls l sl ->
    denotes ls ((p, PValList x) :: l) ((p, vs) :: sl).

(** The lists known after a piece of program text: list definitions are declarations, in force from where
    they stand in the text on. *)
Fixpoint declared (ls : lists) (s : pstmt) : lists :=
  match s with
  | PDefineList x vs => update ls x vs
  | PIf _ body => fold_left declared body ls
  | _ => ls
  end.

(** [runs rho ls prog rho' os]: the program, started with the variables [rho] and the lists [ls], ends with
    the variables [rho'] and applies the orders [os]. *)
Inductive runs : env -> lists -> list pstmt -> env -> list sorder -> Prop :=
| RunNil : forall rho ls, runs rho ls [] rho []
| RunList : forall rho ls x vs prog rho' os,
    runs rho (update ls x vs) prog rho' os ->
    runs rho ls (PDefineList x vs :: prog) rho' os
| RunDefine : forall rho ls x e v prog rho' os,
    evals rho e v -> runs (update rho x v) ls prog rho' os ->
    runs rho ls (PDefine x e :: prog) rho' os
| RunIfTrue : forall rho ls c body prog rho1 os1 rho' os,
    evals rho c (VBool true) -> runs rho ls body rho1 os1 ->
    runs rho1 (declared ls (PIf c body)) prog rho' os ->
    runs rho ls (PIf c body :: prog) rho' (os1 ++ os)
| RunIfFalse : forall rho ls c body prog rho' os,
    evals rho c (VBool false) ->
    runs rho (declared ls (PIf c body)) prog rho' os ->
    runs rho ls (PIf c body :: prog) rho' os
| RunOrder : forall rho ls g sm same sg ssm prog rho' os,
    denotes ls g sg -> denotes ls sm ssm ->
    runs rho ls prog rho' os ->
    runs rho ls (POrder g sm same :: prog) rho' (SOrd sg ssm same :: os).

Definition infoEnv (info : list (string * cell)) : env := fun x => lookup x info.
Definition noLists : lists := fun _ => None.

(** The program applies exactly these orders, in this sequence, for these live infos. *)
Definition applies (info : list (string * cell)) (prog : list pstmt) (os : list sorder) : Prop :=
  exists rho', runs (infoEnv info) noLists prog rho' os.

(** ** Patterns *)

(** The value of a property of a configuration is one of the listed values. *)
Definition isValue (p : prop) (v : cell) (c : config F) : Prop :=
  match p, v with
  | PContainer, VOption KContainer n => cContainer F c = n
  | PTraversal, VOption KTraversal n => cTraversal F c = n
  | PDataLayout, VOption KDataLayout n => cDataLayout F c = n
  | PNewton3, VOption KNewton3 n => cNewton3 F c = n
  | PLoadEstimator, VOption KLoadEstimator n => cLoadEstimator F c = n
  | PCellSizeFactor, VDouble d => dLt F (cCellSizeFactor F c) d = false /\ dLt F d (cCellSizeFactor F c) = false
  | PCellSizeFactor, VSize n =>
      dLt F (cCellSizeFactor F c) (dOfSize F n) = false /\ dLt F (dOfSize F n) (cCellSizeFactor F c) = false
  | _, _ => False
  end.

(** A pattern describes the configurations that have, for every property it names, one of the values it
    lists for that property. *)
Definition describes (sp : spattern) (c : config F) : Prop :=
  forall p, In p (map fst sp) -> exists vs v, In (p, vs) sp /\ In v vs /\ isValue p v c.

(** The values of a pattern are values of the properties they are listed for, and cell size factors are
    written with a decimal point. *)
Definition fits (p : prop) (v : cell) : Prop :=
  match p, v with
  | PContainer, VOption KContainer _ => True
  | PTraversal, VOption KTraversal _ => True
  | PDataLayout, VOption KDataLayout _ => True
  | PNewton3, VOption KNewton3 _ => True
  | PLoadEstimator, VOption KLoadEstimator _ => True
  | PCellSizeFactor, VDouble _ => True
  | _, _ => False
  end.

Definition patternFits (sp : spattern) : Prop :=
  forall p vs, In (p, vs) sp -> vs <> [] /\ forall v, In v vs -> fits p v.

(** Some applied order has the configuration on its right-hand side. *)
Definition declaredWorse (os : list sorder) (c : config F) : Prop :=
  exists o, In o os /\ describes (worse o) c.

(** Both configurations agree in a property. *)
Definition agree (p : prop) (c c' : config F) : Prop :=
  match p with
  | PContainer => cContainer F c = cContainer F c'
  | PTraversal => cTraversal F c = cTraversal F c'
  | PDataLayout => cDataLayout F c = cDataLayout F c'
  | PNewton3 => cNewton3 F c = cNewton3 F c'
  | PLoadEstimator => cLoadEstimator F c = cLoadEstimator F c'
  | PCellSizeFactor => cCellSizeFactor F c = cCellSizeFactor F c'
  end.

(** What the documentation says an order states: [c] is better than [c']. *)
Definition statesBetter (o : sorder) (c c' : config F) : Prop :=
  describes (better o) c /\ describes (worse o) c' /\ forall p, In p (sameProps o) -> agree p c c'.

(** ** Parentheses *)

Fixpoint noParenE (e : pexpr) : Prop :=
  match e with
  | PParen _ => False
  | PNot a => noParenE a
  | PBin _ a b => noParenE a /\ noParenE b
  | _ => True
  end.

Fixpoint noParen (s : pstmt) : Prop :=
  match s with
  | PDefine _ e => noParenE e
  | PIf c body => noParenE c /\ (fix all l := match l with [] => True | s :: l' => noParen s /\ all l' end) body
  | _ => True
  end.

Definition noParens (prog : list pstmt) : Prop := Forall noParen prog.

(** ** Scopes *)

(** Every variable that is used is a live info or is defined further up in the text; every list that a
    pattern names is declared further up. *)
Fixpoint scopedE (known : string -> Prop) (e : pexpr) : Prop :=
  match e with
  | PLit _ => True
  | PVar x => known x
  | PNot a => scopedE known a
  | PBin _ a b => scopedE known a /\ scopedE known b
  | PParen a => scopedE known a
  end.

Fixpoint defined (known : string -> Prop) (s : pstmt) : string -> Prop :=
  match s with
  | PDefine x _ => fun y => y = x \/ known y
  | PIf _ body => fold_left defined body known
  | _ => known
  end.

Inductive scoped : (string -> Prop) -> lists -> list pstmt -> Prop :=
| ScNil : forall K ls, scoped K ls []
| ScList : forall K ls x vs prog, scoped K (update ls x vs) prog -> scoped K ls (PDefineList x vs :: prog)
| ScDefine : forall K ls x e prog,
    scopedE K e -> scoped (defined K (PDefine x e)) ls prog -> scoped K ls (PDefine x e :: prog)
| ScIf : forall K ls c body prog,
    scopedE K c -> scoped K ls body -> scoped (defined K (PIf c body)) (declared ls (PIf c body)) prog ->
    scoped K ls (PIf c body :: prog)
| ScOrder : forall K ls g sm same sg ssm prog,
    denotes ls g sg -> denotes ls sm ssm -> scoped K ls prog -> scoped K ls (POrder g sm same :: prog).

Definition wellScoped (info : list (string * cell)) (prog : list pstmt) : Prop :=
  scoped (fun x => In x (map fst info)) noLists prog.

(** ** Types *)

Inductive ty : Set := TBool | TDouble | TSize | TOption (k : okind).

Definition typeOf (v : cell) : ty :=
  match v with
  | VBool _ => TBool | VDouble _ => TDouble | VSize _ => TSize | VOption k _ => TOption k
  end.

Definition tenv : Type := string -> option ty.

Inductive numeric : ty -> Prop := NumD : numeric TDouble | NumS : numeric TSize.

Definition join (a b : ty) : ty := match a, b with TSize, TSize => TSize | _, _ => TDouble end.

Inductive typed (G : tenv) : pexpr -> ty -> Prop :=
| TyLit : forall v, typed G (PLit v) (typeOf v)
| TyVar : forall x t, G x = Some t -> typed G (PVar x) t
| TyNot : forall e, typed G e TBool -> typed G (PNot e) TBool
| TyBool : forall o a b, o = OAnd \/ o = OOr -> typed G a TBool -> typed G b TBool -> typed G (PBin o a b) TBool
| TyCmpNum : forall o a b t u, o = OLess \/ o = OGreater -> typed G a t -> typed G b u -> numeric t -> numeric u ->
    typed G (PBin o a b) TBool
| TyCmpSame : forall o a b t, o = OLess \/ o = OGreater -> typed G a t -> typed G b t -> typed G (PBin o a b) TBool
| TyArith : forall o a b t u, o = OAdd \/ o = OSub \/ o = OMul \/ o = ODiv -> typed G a t -> typed G b u ->
    numeric t -> numeric u -> typed G (PBin o a b) (join t u).

(** [typedProg G ls prog]: every expression has a type and conditions are boolean, every list that a pattern
    names is declared above it.  Variables defined inside an if are not used behind it, and no definition
    inside an if changes the type of a variable from outside. *)
Inductive typedProg (outer : tenv) : tenv -> lists -> list pstmt -> Prop :=
| TpNil : forall G ls, typedProg outer G ls []
| TpList : forall G ls x vs prog, typedProg outer G (update ls x vs) prog -> typedProg outer G ls (PDefineList x vs :: prog)
| TpDefine : forall G ls x e t prog,
    typed G e t -> (forall u, outer x = Some u -> u = t) ->
    typedProg outer (update G x t) ls prog -> typedProg outer G ls (PDefine x e :: prog)
| TpIf : forall G ls c body prog,
    typed G c TBool -> typedProg G G ls body ->
    typedProg outer G (declared ls (PIf c body)) prog -> typedProg outer G ls (PIf c body :: prog)
| TpOrder : forall G ls g sm same sg ssm prog,
    denotes ls g sg -> denotes ls sm ssm ->
    typedProg outer G ls prog -> typedProg outer G ls (POrder g sm same :: prog).

Definition infoTypes (info : list (string * cell)) : tenv :=
  fun x => option_map typeOf (lookup x info).

Definition wellTyped (info : list (string * cell)) (prog : list pstmt) : Prop :=
  typedProg (fun _ => None) (infoTypes info) noLists prog.

End Spec.

Arguments SOrd {F} _ _ _.
Arguments better {F} _.
Arguments worse {F} _.
Arguments sameProps {F} _.
