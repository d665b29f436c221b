(** * The rule language of rule-based tuning, its compiler, its virtual machine, and the strategy

    Models src/autopas/tuning/tuningStrategy/ruleBasedTuning: the visitor that turns the parse tree into
    a syntax tree (RuleBasedProgramParser.cpp), the code generation (RuleBasedProgramTree.cpp), the
    virtual machine (RuleVM.h) and the part of RuleBasedTuning.cpp that applies the rules to the queue.

    Not modelled: the lexer and parser that ANTLR generates from RuleLanguage.g4 (the model starts from
    the parse tree), reading the file, logging, the measuring of times in verify mode. *)

From Coq Require Import ZArith List Bool String.
Import ListNotations.
Open Scope Z_scope.

(** The arithmetic of C++ doubles, as far as the virtual machine uses it.  Everything below is
    parametrised by it, so the theorems hold for every choice of rounding. *)
Record doubles := Doubles {
  D : Type;
  dAdd : D -> D -> D;
  dSub : D -> D -> D;
  dMul : D -> D -> D;
  dDiv : D -> D -> D;
  dLt : D -> D -> bool;
  dEq : D -> D -> bool;
  dZero : D;
  dMax : D;               (* std::numeric_limits<double>::max() *)
  dOfSize : Z -> D        (* the conversion from size_t *)
}.

(** The result of C++ code: a value, an exception, or undefined behaviour. *)
Inductive exn : Set :=
| OutOfRange    (* std::out_of_range, from vector::at and map::at *)
| BadType       (* std::bad_variant_access and the std::runtime_error of compare and computeBinary *)
| OutOfFuel.    (* not an exception: the model's own bound on the loop of RuleVM::execute was reached *)

Inductive res (A : Type) : Type :=
| Ok : A -> res A
| Throw : exn -> res A
| UB : res A.
Arguments Ok {A} _.
Arguments Throw {A} _.
Arguments UB {A}.

Definition bind {A B} (x : res A) (f : A -> res B) : res B :=
  match x with Ok a => f a | Throw e => Throw e | UB => UB end.

Definition ofOption {A} (e : exn) (x : option A) : res A :=
  match x with Some a => Ok a | None => Throw e end.

(** The option classes that a memory cell can hold (RuleVM.h:23-24). *)
Inductive okind : Set := KContainer | KTraversal | KLoadEstimator | KDataLayout | KNewton3.

Definition okind_eqb (a b : okind) : bool :=
  match a, b with
  | KContainer, KContainer | KTraversal, KTraversal | KLoadEstimator, KLoadEstimator
  | KDataLayout, KDataLayout | KNewton3, KNewton3 => true
  | _, _ => false
  end.

(** The properties of a configuration that a pattern can name (RuleLanguage.g4, Configuration_property). *)
Inductive prop : Set := PContainer | PTraversal | PDataLayout | PNewton3 | PLoadEstimator | PCellSizeFactor.

(** Operators (RuleBasedProgramTree.h:462: LESS, GREATER, AND, OR, ADD, SUB, MUL, DIV). *)
Inductive bop : Set := OLess | OGreater | OAnd | OOr | OAdd | OSub | OMul | ODiv.

Definition twoTo64 : Z := 18446744073709551616.

Section Rules.
Variable F : doubles.

(** RuleVM.h:23-24 MemoryCell.  An option value is its kind and the number of its enumerator. *)
Inductive cell : Type :=
| VBool : bool -> cell
| VDouble : D F -> cell
| VSize : Z -> cell
| VOption : okind -> nat -> cell.

(** ** The parse tree (RuleLanguage.g4) *)

Inductive pexpr : Type :=
| PLit : cell -> pexpr
| PVar : string -> pexpr
| PNot : pexpr -> pexpr
| PBin : bop -> pexpr -> pexpr -> pexpr
| PParen : pexpr -> pexpr.

Inductive pvalue : Type :=
| PValLit : cell -> pvalue
| PValList : string -> pvalue.

Definition ppattern : Type := list (prop * pvalue).

Inductive pstmt : Type :=
| PDefineList : string -> list cell -> pstmt
| PDefine : string -> pexpr -> pstmt
| PIf : pexpr -> list pstmt -> pstmt
| POrder : ppattern -> ppattern -> list prop -> pstmt.

(** ** The syntax tree *)

Inductive expr : Type :=
| ELit : cell -> expr
| EVar : string -> expr
| ENot : expr -> expr
| EBin : bop -> expr -> expr -> expr.

(** RuleBasedProgramTree.h:21-41 ConfigurationPattern: the allowed values per component.  The sets are
    lists here; only membership is ever asked. *)
Record pattern : Type := Pattern {
  ptContainers : list nat;
  ptTraversals : list nat;
  ptLoadEstimators : list nat;
  ptDataLayouts : list nat;
  ptNewton3 : list nat;
  ptCellSizeFactors : list (D F)
}.

Definition emptyPattern : pattern := Pattern [] [] [] [] [] [].

(** RuleBasedProgramTree.h:193-248 ConfigurationOrder. *)
Record order : Type := Order {
  oGreater : pattern;
  oSmaller : pattern;
  oSame : list prop
}.

Inductive stmt : Type :=
| SDefineList : string -> list cell -> stmt
| SDefine : string -> expr -> stmt
| SIf : expr -> list stmt -> stmt
| SOrder : order -> stmt.

(** ** Patterns *)

(** RuleBasedProgramTree.h:65-72 add, 117-127 addHelper, addHelper2: a value goes to the set whose element
    type is the type of the value; a value of any other type is dropped. *)
Definition patternAdd (p : pattern) (v : cell) : pattern :=
  match v with
  | VOption KContainer n =>
      Pattern (n :: ptContainers p) (ptTraversals p) (ptLoadEstimators p) (ptDataLayouts p)
              (ptNewton3 p) (ptCellSizeFactors p)
  | VOption KTraversal n =>
      Pattern (ptContainers p) (n :: ptTraversals p) (ptLoadEstimators p) (ptDataLayouts p)
              (ptNewton3 p) (ptCellSizeFactors p)
  | VOption KLoadEstimator n =>
      Pattern (ptContainers p) (ptTraversals p) (n :: ptLoadEstimators p) (ptDataLayouts p)
              (ptNewton3 p) (ptCellSizeFactors p)
  | VOption KDataLayout n =>
      Pattern (ptContainers p) (ptTraversals p) (ptLoadEstimators p) (n :: ptDataLayouts p)
              (ptNewton3 p) (ptCellSizeFactors p)
  | VOption KNewton3 n =>
      Pattern (ptContainers p) (ptTraversals p) (ptLoadEstimators p) (ptDataLayouts p)
              (n :: ptNewton3 p) (ptCellSizeFactors p)
  | VDouble d =>
      Pattern (ptContainers p) (ptTraversals p) (ptLoadEstimators p) (ptDataLayouts p)
              (ptNewton3 p) (d :: ptCellSizeFactors p)
  | VBool _ | VSize _ => p
  end.

(** src/autopas/tuning/Configuration.h: the fields of a configuration (the interaction type takes no part
    in the rule language). *)
Record config : Type := Config {
  cContainer : nat;
  cTraversal : nat;
  cLoadEstimator : nat;
  cDataLayout : nat;
  cNewton3 : nat;
  cCellSizeFactor : D F
}.

(** std::set<double>::find: two doubles are the same element if neither is less. *)
Definition sameDouble (a b : D F) : bool := negb (dLt F a b) && negb (dLt F b a).

(** RuleBasedProgramTree.h:112-115 contains, with the test for emptiness of 78-83. *)
Definition allowsNat (set : list nat) (n : nat) : bool :=
  match set with [] => true | _ => existsb (Nat.eqb n) set end.

Definition allowsDouble (set : list (D F)) (d : D F) : bool :=
  match set with [] => true | _ => existsb (sameDouble d) set end.

(** RuleBasedProgramTree.h:77-84 matches. *)
Definition matches (p : pattern) (c : config) : bool :=
  allowsNat (ptContainers p) (cContainer c)
  && allowsNat (ptTraversals p) (cTraversal c)
  && allowsNat (ptLoadEstimators p) (cLoadEstimator c)
  && allowsNat (ptDataLayouts p) (cDataLayout c)
  && allowsNat (ptNewton3 p) (cNewton3 c)
  && allowsDouble (ptCellSizeFactors p) (cCellSizeFactor c).

(** ** The visitor *)

(** RuleBasedProgramParser.cpp:15-28 ParserContext, together with the global variables that the
    CodeGenerationContext holds while parsing.  Of a definition only the name matters. *)
Record parserContext : Type := ParserContext {
  pcGlobals : list string;
  pcDefinitions : list string;
  pcLists : list (string * list cell)     (* the entry in front is the current one *)
}.

Fixpoint lookup {A} (x : string) (l : list (string * A)) : option A :=
  match l with
  | [] => None
  | (y, a) :: l' => if String.eqb x y then Some a else lookup x l'
  end.

(** RuleBasedProgramParser.cpp:151-159 visitVariable: neither map knows the name, so map::at throws. *)
Definition visitVariable (pc : parserContext) (x : string) : res expr :=
  if existsb (String.eqb x) (pcDefinitions pc) then Ok (EVar x)
  else if existsb (String.eqb x) (pcGlobals pc) then Ok (EVar x)
  else Throw OutOfRange.

(** RuleBasedProgramParser.cpp:166-184 visitExpression.  For a parenthesised expression none of the first
    three conditions holds and ctx->op is the null pointer (parser_generated/.../RuleLanguageParser.h:160,
    no operator token is assigned), so the fourth condition calls a method on it. *)
Fixpoint visitExpression (pc : parserContext) (e : pexpr) : res expr :=
  match e with
  | PBin o a b =>
      bind (visitExpression pc a) (fun a' =>
      bind (visitExpression pc b) (fun b' => Ok (EBin o a' b')))
  | PLit v => Ok (ELit v)
  | PVar x => visitVariable pc x
  | PNot a => bind (visitExpression pc a) (fun a' => Ok (ENot a'))
  | PParen _ => UB
  end.

(** RuleBasedProgramParser.cpp:200-207 resolveList (the list map of the CodeGenerationContext is empty
    while parsing, so the fallback throws). *)
Definition resolveList (pc : parserContext) (x : string) : res (list cell) :=
  ofOption OutOfRange (lookup x (pcLists pc)).

(** RuleBasedProgramParser.cpp:214-239 visitConfiguration_pattern.  The name of the property is only
    checked to be known, which the grammar guarantees. *)
Fixpoint visitPatternFrom (pc : parserContext) (acc : pattern) (p : ppattern) : res pattern :=
  match p with
  | [] => Ok acc
  | (_, PValLit v) :: p' => visitPatternFrom pc (fold_left patternAdd [v] acc) p'
  | (_, PValList x) :: p' =>
      bind (resolveList pc x) (fun vs => visitPatternFrom pc (fold_left patternAdd vs acc) p')
  end.

Definition visitPattern (pc : parserContext) (p : ppattern) : res pattern :=
  visitPatternFrom pc emptyPattern p.

(** RuleBasedProgramParser.cpp:274-283 visitStatement with 129-144 visitDefine_list and visitDefine, 246-267
    visitConfiguration_order and 290-297 visitIf_statement.  A definition is entered after its statement. *)
Fixpoint visitStatement (pc : parserContext) (s : pstmt) {struct s} : res (stmt * parserContext) :=
  match s with
  | PDefineList x vs =>
      Ok (SDefineList x vs, ParserContext (pcGlobals pc) (pcDefinitions pc) ((x, vs) :: pcLists pc))
  | PDefine x e =>
      bind (visitExpression pc e) (fun e' =>
      Ok (SDefine x e', ParserContext (pcGlobals pc) (x :: pcDefinitions pc) (pcLists pc)))
  | PIf c body =>
      bind (visitExpression pc c) (fun c' =>
      bind ((fix go (pc : parserContext) (l : list pstmt) : res (list stmt * parserContext) :=
               match l with
               | [] => Ok ([], pc)
               | s :: l' =>
                   bind (visitStatement pc s) (fun '(s', pc1) =>
                   bind (go pc1 l') (fun '(l1, pc2) => Ok (s' :: l1, pc2)))
               end) pc body) (fun '(body', pc') =>
      Ok (SIf c' body', pc')))
  | POrder g sm same =>
      bind (visitPattern pc g) (fun g' =>
      bind (visitPattern pc sm) (fun sm' =>
      Ok (SOrder (Order g' sm' same), pc)))
  end.

(** RuleBasedProgramParser.cpp:86-92 visitProgram. *)
Fixpoint visitStatements (pc : parserContext) (l : list pstmt) : res (list stmt * parserContext) :=
  match l with
  | [] => Ok ([], pc)
  | s :: l' =>
      bind (visitStatement pc s) (fun '(s', pc1) =>
      bind (visitStatements pc1 l') (fun '(l1, pc2) => Ok (s' :: l1, pc2)))
  end.

(** ** Code generation *)

(** RuleVM.h:29-106 the instructions, with the payload of the type that the instruction reads.  POP and
    CONDOUTPUTC are never generated. *)
Inductive instr : Type :=
| LOADC : cell -> instr
| LOADA : nat -> instr
| STOREA : nat -> instr
| RESERVE : nat -> instr
| LESS : instr
| GREATER : instr
| EQUAL : instr
| JUMPZERO : nat -> instr
| OUTPUTC : nat -> instr
| HALT : instr
| AND : instr
| OR : instr
| MUL : instr
| DIV : instr
| ADD : instr
| SUB : instr
| NOT : instr.

(** RuleBasedProgramTree.h:255-353 CodeGenerationContext. *)
Record genContext : Type := GenContext {
  gcCurrent : nat;                        (* currentNeededStack *)
  gcMax : nat;                            (* maxNeededStack *)
  gcEnv : list (string * nat);            (* addressEnvironment *)
  gcInitial : nat;                        (* initialNumVariables *)
  gcOrders : list order                   (* configurationOrders *)
}.

(** RuleBasedProgramTree.cpp:139-142 allocateStack. *)
Definition allocateStack (n : nat) (g : genContext) : genContext :=
  GenContext (gcCurrent g + n) (Nat.max (gcMax g) (gcCurrent g + n)) (gcEnv g) (gcInitial g) (gcOrders g).

(** RuleBasedProgramTree.cpp:144 freeStack. *)
Definition freeStack (n : nat) (g : genContext) : genContext :=
  GenContext (gcCurrent g - n) (gcMax g) (gcEnv g) (gcInitial g) (gcOrders g).

(** RuleBasedProgramTree.cpp:122-124 addLocalVariable: std::map::insert leaves an existing entry alone. *)
Definition addLocalVariable (x : string) (g : genContext) : genContext :=
  match lookup x (gcEnv g) with
  | Some _ => g
  | None => GenContext (gcCurrent g) (gcMax g) (gcEnv g ++ [(x, List.length (gcEnv g))]) (gcInitial g) (gcOrders g)
  end.

(** RuleBasedProgramTree.cpp:126-129 addGlobalVariable. *)
Definition addGlobalVariable (x : string) (g : genContext) : genContext :=
  addLocalVariable x (GenContext (gcCurrent g) (gcMax g) (gcEnv g) (S (gcInitial g)) (gcOrders g)).

(** RuleBasedProgramTree.cpp:131-133 addressOf. *)
Definition addressOf (x : string) (g : genContext) : res nat := ofOption OutOfRange (lookup x (gcEnv g)).

(** RuleBasedProgramTree.cpp:150-153 addConfigurationOrder. *)
Definition addOrder (o : order) (g : genContext) : genContext :=
  GenContext (gcCurrent g) (gcMax g) (gcEnv g) (gcInitial g) (gcOrders g ++ [o]).

(** RuleBasedProgramTree.cpp:163 getNumLocalVariables. *)
Definition numLocals (g : genContext) : nat := List.length (gcEnv g) - gcInitial g.

(** RuleBasedProgramTree.cpp:33-36 opMap. *)
Definition opCode (o : bop) : instr :=
  match o with
  | OLess => LESS | OGreater => GREATER | OAnd => AND | OOr => OR
  | OAdd => ADD | OSub => SUB | OMul => MUL | ODiv => DIV
  end.

(** RuleBasedProgramTree.cpp:11-14 Variable, 21-25 UnaryOperator, 29-40 BinaryOperator, 169-172 Literal. *)
Fixpoint genExpr (e : expr) (g : genContext) (code : list instr) : res (genContext * list instr) :=
  match e with
  | ELit v => Ok (allocateStack 1 g, code ++ [LOADC v])
  | EVar x => bind (addressOf x g) (fun a => Ok (allocateStack 1 g, code ++ [LOADA a]))
  | ENot a => bind (genExpr a g code) (fun '(g1, code1) => Ok (g1, code1 ++ [NOT]))
  | EBin o a b =>
      bind (genExpr a g code) (fun '(g1, code1) =>
      bind (genExpr b g1 code1) (fun '(g2, code2) =>
      Ok (freeStack 1 g2, code2 ++ [opCode o])))
  end.

(** program.instructions[idx].payload = ...: the instruction at an index is replaced. *)
Fixpoint patch (i : instr) (idx : nat) (code : list instr) : list instr :=
  match code, idx with
  | [], _ => []
  | _ :: code', O => i :: code'
  | j :: code', S idx' => j :: patch i idx' code'
  end.

(** RuleBasedProgramTree.cpp:177-179 DefineList, 186-192 Define, 197-208 If, 56-59 ConfigurationOrder. *)
Fixpoint genStmt (s : stmt) (g : genContext) (code : list instr) {struct s} : res (genContext * list instr) :=
  match s with
  | SDefineList _ _ => Ok (g, code)
  | SDefine x e =>
      bind (genExpr e g code) (fun '(g1, code1) =>
      let g2 := addLocalVariable x g1 in
      bind (addressOf x g2) (fun a => Ok (freeStack 1 g2, code1 ++ [STOREA a])))
  | SIf c body =>
      bind (genExpr c g code) (fun '(g1, code1) =>
      let code2 := code1 ++ [JUMPZERO 0] in
      let g2 := freeStack 1 g1 in
      let jumpInstrIdx := (List.length code2 - 1)%nat in
      bind ((fix go (l : list stmt) (g : genContext) (code : list instr) : res (genContext * list instr) :=
               match l with
               | [] => Ok (g, code)
               | s :: l' => bind (genStmt s g code) (fun '(g', code') => go l' g' code')
               end) body g2 code2) (fun '(g3, code3) =>
      Ok (g3, patch (JUMPZERO (List.length code3)) jumpInstrIdx code3)))
  | SOrder o =>
      let g1 := addOrder o g in
      Ok (g1, code ++ [OUTPUTC (List.length (gcOrders g1) - 1)])
  end.

Fixpoint genStmts (l : list stmt) (g : genContext) (code : list instr) : res (genContext * list instr) :=
  match l with
  | [] => Ok (g, code)
  | s :: l' => bind (genStmt s g code) (fun '(g', code') => genStmts l' g' code')
  end.

(** RuleVM.h:135-144 Program. *)
Record program : Type := Program { pgInstructions : list instr; pgNeeded : nat }.

(** RuleBasedProgramTree.cpp:210-221 RuleBasedProgramTree::generateCode. *)
Definition genProgram (l : list stmt) (g : genContext) : res (genContext * program) :=
  bind (genStmts l g [RESERVE 0]) (fun '(g', code) =>
  let code' := patch (RESERVE (numLocals g')) 0 code in
  Ok (g', Program (code' ++ [HALT]) (numLocals g' + gcMax g'))).

(** RuleBasedProgramParser.cpp:307-311: the context with the predefined variables. *)
Definition initialContext (globals : list string) : genContext :=
  fold_left (fun g x => addGlobalVariable x g) globals (GenContext 0 0 [] 0 []).

(** ** The virtual machine *)

(** RuleVM.h:301-323 the members.  The stack pointer is a size_t that starts at size() - 1 and may wrap
    around below zero; here it is an integer, and every access checks the range like vector::at. *)
Record vm : Type := Vm {
  vmPc : nat;
  vmSp : Z;
  vmHalt : bool;
  vmStack : list cell;
  vmOut : list nat
}.

Definition stackAt (st : vm) (i : Z) : res cell :=
  if i <? 0 then Throw OutOfRange else ofOption OutOfRange (nth_error (vmStack st) (Z.to_nat i)).

Fixpoint setNth {A} (i : nat) (a : A) (l : list A) : list A :=
  match l, i with
  | [], _ => []
  | _ :: l', O => a :: l'
  | b :: l', S i' => b :: setNth i' a l'
  end.

(** [_stack.at(i) = v] with the stack pointer left at [sp]. *)
Definition store (st : vm) (sp : Z) (i : Z) (v : cell) : res vm :=
  if (i <? 0) || (Z.of_nat (List.length (vmStack st)) <=? i) then Throw OutOfRange
  else Ok (Vm (vmPc st) sp (vmHalt st) (setNth (Z.to_nat i) v (vmStack st)) (vmOut st)).

Definition getBool (v : cell) : res bool := match v with VBool b => Ok b | _ => Throw BadType end.

(** The three comparators std::less, std::greater, std::equal_to. *)
Inductive cmp : Set := CLess | CGreater | CEqual.

Definition cmpZ (c : cmp) (a b : Z) : bool :=
  match c with CLess => a <? b | CGreater => b <? a | CEqual => a =? b end.

Definition cmpD (c : cmp) (a b : D F) : bool :=
  match c with CLess => dLt F a b | CGreater => dLt F b a | CEqual => dEq F a b end.

(** RuleVM.h:270-285 compare: equal types, or two numbers (the usual arithmetic conversions turn a size_t
    compared with a double into a double). *)
Definition compareCells (c : cmp) (l r : cell) : res bool :=
  match l, r with
  | VBool a, VBool b => Ok (cmpZ c (Z.b2z a) (Z.b2z b))
  | VDouble a, VDouble b => Ok (cmpD c a b)
  | VSize a, VSize b => Ok (cmpZ c a b)
  | VDouble a, VSize b => Ok (cmpD c a (dOfSize F b))
  | VSize a, VDouble b => Ok (cmpD c (dOfSize F a) b)
  | VOption k a, VOption k' b =>
      if okind_eqb k k' then Ok (cmpZ c (Z.of_nat a) (Z.of_nat b)) else Throw BadType
  | _, _ => Throw BadType
  end.

(** RuleVM.h:287-299 computeBinary: two numbers; a mixed pair is computed in double. *)
Definition computeBinary (onSize : Z -> Z -> Z) (onDouble : D F -> D F -> D F) (l r : cell) : res cell :=
  match l, r with
  | VDouble a, VDouble b => Ok (VDouble (onDouble a b))
  | VSize a, VSize b => Ok (VSize (onSize a b))
  | VDouble a, VSize b => Ok (VDouble (onDouble a (dOfSize F b)))
  | VSize a, VDouble b => Ok (VDouble (onDouble (dOfSize F a) b))
  | _, _ => Throw BadType
  end.

Definition mulSize (a b : Z) : Z := (a * b) mod twoTo64.
Definition addSize (a b : Z) : Z := (a + b) mod twoTo64.
Definition subSize (a b : Z) : Z := (a - b) mod twoTo64.

(** RuleVM.h:237-245 the division: a divisor of zero gives the greatest value of the result type. *)
Definition divSize (a b : Z) : Z := if b =? 0 then twoTo64 - 1 else a / b.
Definition divCells (l r : cell) : res cell :=
  match l, r with
  | VDouble a, VDouble b => Ok (VDouble (if dEq F b (dZero F) then dMax F else dDiv F a b))
  | VSize a, VSize b => Ok (VSize (divSize a b))
  | VDouble a, VSize b => Ok (VDouble (if b =? 0 then dMax F else dDiv F a (dOfSize F b)))
  | VSize a, VDouble b => Ok (VDouble (if dEq F b (dZero F) then dMax F else dDiv F (dOfSize F a) b))
  | _, _ => Throw BadType
  end.

(** RuleVM.h:218-227 AND and OR: the top cell is read first, and the cell below it only if that does not
    decide the result. *)
Definition andCells (below top : cell) : res bool :=
  bind (getBool top) (fun b => if b then getBool below else Ok false).
Definition orCells (below top : cell) : res bool :=
  bind (getBool top) (fun b => if b then Ok true else getBool below).

Definition setOut (o : list nat) (st : vm) : vm := Vm (vmPc st) (vmSp st) (vmHalt st) (vmStack st) o.
Definition setSp (sp : Z) (st : vm) : vm := Vm (vmPc st) sp (vmHalt st) (vmStack st) (vmOut st).
Definition setPc (pc : nat) (st : vm) : vm := Vm pc (vmSp st) (vmHalt st) (vmStack st) (vmOut st).
Definition setHalt (st : vm) : vm := Vm (vmPc st) (vmSp st) true (vmStack st) (vmOut st).

(** A binary instruction: the two cells on top are replaced by the result. *)
Definition binary (f : cell -> cell -> res cell) (st : vm) : res vm :=
  bind (stackAt st (vmSp st - 1)) (fun l =>
  bind (stackAt st (vmSp st)) (fun r =>
  bind (f l r) (fun v => store st (vmSp st - 1) (vmSp st - 1) v))).

Definition boolCell (f : cell -> cell -> res bool) (l r : cell) : res cell :=
  bind (f l r) (fun b => Ok (VBool b)).

(** RuleVM.h:168-262 executeInstruction. *)
Definition executeInstruction (i : instr) (st : vm) : res vm :=
  match i with
  | LOADC v => store st (vmSp st + 1) (vmSp st + 1) v
  | LOADA a => bind (stackAt st (Z.of_nat a)) (fun v => store st (vmSp st + 1) (vmSp st + 1) v)
  | STOREA a => bind (stackAt st (vmSp st)) (fun v => store st (vmSp st - 1) (Z.of_nat a) v)
  | RESERVE n => Ok (setSp (vmSp st + Z.of_nat n) st)
  | LESS => binary (boolCell (compareCells CLess)) st
  | GREATER => binary (boolCell (compareCells CGreater)) st
  | EQUAL => binary (boolCell (compareCells CEqual)) st
  | JUMPZERO t =>
      bind (stackAt st (vmSp st)) (fun v =>
      bind (getBool v) (fun b =>
      Ok (if b then setSp (vmSp st - 1) st else setPc t (setSp (vmSp st - 1) st))))
  | OUTPUTC n => Ok (setOut (vmOut st ++ [n]) st)
  | HALT => Ok (setHalt st)
  | AND => binary (boolCell andCells) st
  | OR => binary (boolCell orCells) st
  | MUL => binary (computeBinary mulSize (dMul F)) st
  | DIV => binary divCells st
  | ADD => binary (computeBinary addSize (dAdd F)) st
  | SUB => binary (computeBinary subSize (dSub F)) st
  | NOT => bind (stackAt st (vmSp st)) (fun v =>
           bind (getBool v) (fun b => store st (vmSp st) (vmSp st) (VBool (negb b))))
  end.

(** RuleVM.h:160-164: the loop.  [fuel] bounds the number of instructions executed. *)
Fixpoint runVM (fuel : nat) (code : list instr) (st : vm) : res (list nat) :=
  if vmHalt st then Ok (vmOut st)
  else
    match fuel with
    | O => Throw OutOfFuel
    | S fuel' =>
        bind (ofOption OutOfRange (nth_error code (vmPc st))) (fun i =>
        bind (executeInstruction i (setPc (S (vmPc st)) st)) (fun st' => runVM fuel' code st'))
    end.

(** RuleVM.h:152-165 execute.  vector::resize fills with default cells, and the default of the variant is
    its first alternative, false. *)
Definition execute (fuel : nat) (p : program) (initialStack : list cell) : res (list nat) :=
  runVM fuel (pgInstructions p)
    (Vm 0 (Z.of_nat (List.length initialStack) - 1) false
        (initialStack ++ repeat (VBool false) (pgNeeded p)) []).

(** ** The tuning strategy *)

(** RuleBasedTuning.cpp:164-184 the part of applyRules that executes the rules: the predefined variables and
    the initial stack are the live infos, in the order of the map that holds them. *)
Definition applicableOrders (fuel : nat) (rules : list pstmt) (info : list (string * cell)) : res (list order) :=
  let context := initialContext (map fst info) in
  bind (visitStatements (ParserContext (map fst info) [] []) rules) (fun '(tree, _) =>
  bind (genProgram tree context) (fun '(context', prog) =>
  bind (execute fuel prog (map snd info)) (fun removePatterns =>
  fold_right (fun i acc => bind (ofOption OutOfRange (nth_error (gcOrders context') i)) (fun o =>
                           bind acc (fun os => Ok (o :: os))))
             (Ok []) removePatterns))).

Section Strategy.

(** Configuration.cpp:116-120 operator<, the order of std::set<Configuration>. *)
Variable cLt : config -> config -> bool.

(** std::set<Configuration>::insert. *)
Fixpoint setInsert (c : config) (l : list config) : list config :=
  match l with
  | [] => [c]
  | h :: t => if cLt c h then c :: h :: t else if cLt h c then h :: setInsert c t else h :: t
  end.

Definition setOf (l : list config) : list config := fold_left (fun acc c => setInsert c acc) l [].

(** RuleBasedTuning.h:165-184 the members that decide about the queue. *)
Record strategy : Type := Strategy {
  rbVerify : bool;               (* _verifyModeEnabled *)
  rbTuningTime : Z;              (* _tuningTime *)
  rbTooHarsh : bool;             (* _rulesTooHarsh *)
  rbSearchSpace : list config;   (* _searchSpace *)
  rbRemoved : list config        (* _removedConfigurations *)
}.

(** RuleBasedTuning.cpp:186-205 applyRules, second part. *)
Definition removable (os : list order) (c : config) : bool :=
  existsb (fun o => matches (oSmaller o) c) os.

Definition applyOrders (os : list order) (s : strategy) (queue : list config) : strategy :=
  let newSearchSpace := filter (fun c => negb (removable os c)) queue in
  Strategy (rbVerify s) (rbTuningTime s) (rbTooHarsh s)
           (if rbVerify s then rbSearchSpace s else setOf newSearchSpace)
           (fold_left (fun acc c => setInsert c acc) (filter (removable os) queue) (rbRemoved s)).

(** RuleBasedTuning.cpp:89-108 optimizeSuggestions. *)
Definition optimizeSuggestions (fuel : nat) (rules : list pstmt) (info : list (string * cell))
  (s : strategy) (queue : list config) : res (strategy * list config) :=
  bind (applicableOrders fuel rules info) (fun os =>
  let s1 := applyOrders os s queue in
  if rbTooHarsh s1 || (match rbSearchSpace s1 with [] => true | _ => false end && (rbTuningTime s1 =? 0))
  then Ok (Strategy (rbVerify s1) (rbTuningTime s1) true (rbSearchSpace s1) (rbRemoved s1), queue)
  else Ok (s1, if rbVerify s1 then queue else rev (rbSearchSpace s1))).

(** RuleBasedTuning.cpp:58-85 reset. *)
Definition resetStrategy (fuel : nat) (rules : list pstmt) (info : list (string * cell))
  (s : strategy) (queue : list config) : res (strategy * list config) :=
  optimizeSuggestions fuel rules info (Strategy (rbVerify s) 0 false (rbSearchSpace s) []) queue.

(** RuleBasedTuning.cpp:44-56 addEvidence: the measured time is added up. *)
Definition addEvidence (time : Z) (s : strategy) : strategy :=
  Strategy (rbVerify s) (rbTuningTime s + time) (rbTooHarsh s) (rbSearchSpace s) (rbRemoved s).

End Strategy.
End Rules.

Arguments VBool {F} _.
Arguments VDouble {F} _.
Arguments VSize {F} _.
Arguments VOption {F} _ _.
Arguments PLit {F} _.
Arguments PVar {F} _.
Arguments PNot {F} _.
Arguments PBin {F} _ _ _.
Arguments PParen {F} _.
Arguments PValLit {F} _.
Arguments PValList {F} _.
Arguments PDefineList {F} _ _.
Arguments PDefine {F} _ _.
Arguments PIf {F} _ _.
Arguments POrder {F} _ _ _.
Arguments ELit {F} _.
Arguments EVar {F} _.
Arguments ENot {F} _.
Arguments EBin {F} _ _ _.
Arguments SDefineList {F} _ _.
Arguments SDefine {F} _ _.
Arguments SIf {F} _ _.
Arguments SOrder {F} _.
