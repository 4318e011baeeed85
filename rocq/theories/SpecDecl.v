(** How Go reads the declarations of a file, and what its methods do. *)
From Coq Require Import String Ascii DecimalString.
From Verif Require Import Base GoType StructTag SpecStructTag SpecText SpecGo.
Local Open Scope string_scope.

(** ** Tokens: names and numbers, and single characters; spaces only separate. *)
Definition name_char (c : ascii) : bool := ident_char c && negb (Ascii.eqb c ".").
Definition one (c : ascii) : string := String c EmptyString.
Fixpoint tokens (s : string) : list string :=
  match s with
  | EmptyString => []
  | String c r =>
    if Ascii.eqb c space then tokens r
    else let joined := match r with String d _ => name_char c && name_char d | EmptyString => false end in
         match tokens r with
         | t :: ts => if joined then String c t :: ts else one c :: t :: ts
         | [] => [one c]
         end
  end.
Definition text (ts : list string) : string := String.concat "" ts.
(** The tokens before the first token [t], and those behind it. *)
Fixpoint until (t : string) (ts : list string) : option (list string * list string) :=
  match ts with
  | [] => None
  | u :: ts => if String.eqb t u then Some ([], ts) else option_map (fun '(a, b) => (u :: a, b)) (until t ts)
  end.

(** ** Blocks: a line that ends in an opening bracket, up to the line with the
    closing one. *)
Inductive node := Line (l : string) | Block (head : string) (body : list node).
Fixpoint last_char (s : string) : option ascii :=
  match s with EmptyString => None | String c EmptyString => Some c | String _ s => last_char s end.
Definition closer (l : string) : option string :=
  match last_char l with
  | Some c => if Ascii.eqb c "{" then Some "}" else if Ascii.eqb c "(" then Some ")" else None
  | None => None
  end.
(** [stack]: the blocks that are open, innermost first: their heads, what closes
    them, and the nodes before them; [cur]: the nodes so far, last first. *)
Fixpoint tree (stack : list (string * string * list node)) (cur : list node) (ls : list string) : option (list node) :=
  match ls with
  | [] => match stack with [] => Some (rev cur) | _ => None end
  | l :: ls =>
    match closer l with
    | Some c => tree ((l, c, cur) :: stack) [] ls
    | None =>
      if String.eqb l "}" || String.eqb l ")" then
        match stack with
        | (h, c, up) :: stack => if String.eqb l c then tree stack (Block h (rev cur) :: up) ls else None
        | [] => None
        end
      else tree stack (Line l :: cur) ls
    end
  end.

(** ** Declarations *)
(** x.f, or something else that stands for itself. *)
Inductive expr := Select (x f : string) | Other (ts : list string).
(** x != nil; y, ok := x.f().( *w ); ok *)
Inductive cond := NotNil (x : string) | Holds (y x f w : string).
Inductive stmt := Return (e : expr) | ReturnIf (c : cond) (e : expr).
Record method := { on : string; var : string; mname : string; result : string; mbody : list stmt }.
Inductive decl :=
| Package (n : string)
| Forward (keyword name target : string)
| Consts (cs : list (string * string * Z))
| Struct (n : string)
| Interface (n : string) (methods : list string)
| Method (m : method)
| Marker (on mname : string).

(** Tokens by a pattern: the given ones, and any (holes); gives what is in the
    holes and what follows. *)
Inductive pat := T (s : string) | Any.
Fixpoint like (p : list pat) (ts : list string) : option (list string * list string) :=
  match p, ts with
  | [], _ => Some ([], ts)
  | T w :: p, t :: ts => if String.eqb w t then like p ts else None
  | Any :: p, t :: ts => option_map (fun '(hs, r) => (t :: hs, r)) (like p ts)
  | _, [] => None
  end.
Definition as_expr (ts : list string) : expr :=
  match like [Any; T "."; Any] ts with Some ([x; f], []) => Select x f | _ => Other ts end.
Definition as_return (l : string) : option expr :=
  match like [T "return"] (tokens l) with Some (_, ts) => Some (as_expr ts) | None => None end.
Definition not_nil := [T "if"; Any; T "!"; T "="; T "nil"; T "{"].
Definition holds_as := [T "if"; Any; T ","; Any; T ":"; T "="; Any; T "."; Any; T "("; T ")"; T "."; T "("; T "*"; Any; T ")"; T ";"; Any; T "{"].
Definition as_cond (l : string) : option cond :=
  match like not_nil (tokens l), like holds_as (tokens l) with
  | Some ([x], []), _ => Some (NotNil x)
  | _, Some ([y; ok; x; f; w; ok'], []) => if String.eqb ok ok' && negb (String.eqb ok y) then Some (Holds y x f w) else None
  | _, _ => None
  end.
Definition as_stmt (n : node) : option stmt :=
  match n with
  | Line l => option_map Return (as_return l)
  | Block h [Line l] => match as_cond h, as_return l with Some c, Some e => Some (ReturnIf c e) | _, _ => None end
  | _ => None
  end.
Fixpoint each {A B} (f : A -> option B) (l : list A) : option (list B) :=
  match l with
  | [] => Some []
  | x :: l => match f x, each f l with Some y, Some ys => Some (y :: ys) | _, _ => None end
  end.
Definition number (s : string) : option Z := option_map Z.of_int (NilZero.int_of_string s).
(** name type = number *)
Definition as_const (n : node) : option (string * string * Z) :=
  match n with
  | Line l =>
    match like [Any; Any; T "="] (tokens l) with
    | Some ([v; t], ts) => option_map (fun z => (v, t, z)) (number (text ts))
    | _ => None
    end
  | _ => None
  end.
(** name() *)
Definition as_signature (n : node) : option string :=
  match n with
  | Line l => match like [Any; T "("; T ")"] (tokens l) with Some ([f], []) => Some f | _ => None end
  | _ => None
  end.
(** A declaration on one line: of the package, of an empty method, of a name for
    something else. *)
Definition as_line (ts : list string) : option decl :=
  match like [T "package"; Any] ts, like [T "func"; T "("; T "*"; Any; T ")"; Any; T "("; T ")"; T "{"; T "}"] ts, like [Any; Any; T "="] ts with
  | Some ([p], []), _, _ => Some (Package p)
  | _, Some ([t; f], []), _ => Some (Marker t f)
  | _, _, Some ([k; a], ts) => Some (Forward k a (text ts))
  | _, _, _ => None
  end.
Definition as_method (ts : list string) (body : list node) : option decl :=
  match like [T "func"; T "("; Any; T "*"; Any; T ")"; Any; T "("; T ")"] ts with
  | Some ([x; t; f], ts) =>
    match rev ts with
    | b :: r => if String.eqb b "{" then option_map (fun b => Method {| on := t; var := x; mname := f; result := text (rev r); mbody := b |}) (each as_stmt body) else None
    | [] => None
    end
  | _ => None
  end.
Definition as_block (ts : list string) (body : list node) : option decl :=
  match like [T "const"; T "("] ts, like [T "type"; Any; T "struct"; T "{"] ts, like [T "type"; Any; T "interface"; T "{"] ts with
  | Some ([], []), _, _ => option_map Consts (each as_const body)
  | _, Some ([n], []), _ => Some (Struct n)
  | _, _, Some ([n], []) => option_map (Interface n) (each as_signature body)
  | _, _, _ => as_method ts body
  end.
Definition as_decl (n : node) : option decl :=
  match n with Line l => as_line (tokens l) | Block h body => as_block (tokens h) body end.
(** The declarations of a file of Go; the fields of structs: SpecGo.v. *)
Definition go_decls (s : string) : option (list decl) :=
  match tree [] [] (code_lines s) with Some ns => each as_decl ns | None => None end.

(** ** Running methods *)
(** Values: of types that the library knows; interfaces, which are nil or hold
    a pointer to a struct of the named type, given by its fields. *)
Inductive mval := Plain (v : val) | NoValue | Points (w : string) (p : option (string -> mval)).
Definition pointer := option (string -> mval).
Inductive outcome := Returns (v : mval) | Panics | Stuck.
(** Constants where a value of some type is expected: nil (of interfaces: below), false, "", 0, names of
    constants of enums, and conversions T(number). *)
Definition nil_value (t : gotype) : option mval :=
  match t with
  | TBytes => Some (Plain (VBytes None))
  | TSlice _ => Some (Plain (VSlice false [] []))
  | TMap _ _ => Some (Plain (VMap None))
  | TMsg _ | TPtr _ => Some (Plain (VPtr None))
  | _ => None
  end.
Definition zero_value (t : gotype) : option mval :=
  match t with
  | TScalar KInt32 => Some (Plain (VI32 0)) | TScalar KInt64 => Some (Plain (VI64 0))
  | TScalar KUint32 => Some (Plain (VU32 0)) | TScalar KUint64 => Some (Plain (VU64 0))
  | TScalar KFloat32 => Some (Plain (VF32 0)) | TScalar KFloat64 => Some (Plain (VF64 0))
  | _ => None
  end.
Definition int32_value (t : gotype) (z : Z) : option mval :=
  match t with
  | TScalar KInt32 => if (-2147483648 <=? z)%Z && (z <=? 2147483647)%Z then Some (Plain (VI32 z)) else None
  | _ => None
  end.
Definition quotes : list string := [one (ascii_of_N 34); one (ascii_of_N 34)].
Section Run.
(** What names stand for outside of the file, and its declarations. *)
Variable scope : string -> entity.
Variable consts : string -> option Z.
Variable ds : list decl.
Definition type_text (s : string) : option gotype := option_map (type_of scope) (parse_type s).
Definition conversion (ts : list string) (t : gotype) : option mval :=
  match until "(" ts with
  | Some (c, r) =>
    match until ")" r, type_text (text c), t with
    | Some (n, []), Some (TScalar KInt32), TScalar KInt32 => match number (text n) with Some z => int32_value t z | None => None end
    | _, _, _ => None
    end
  | None => None
  end.
Definition is_interface (g : gtype) : bool :=
  match g with GName n => match scalar_name n, scope n with None, EElse => true | _, _ => false end | _ => false end.
Definition constant (ts : list string) (g : gtype) : option mval :=
  let t := type_of scope g in
  match ts with
  | [c] =>
    if String.eqb c "nil" then if is_interface g then Some NoValue else nil_value t
    else if String.eqb c "false" then match t with TScalar KBool => Some (Plain (VBool false)) | _ => None end
    else if String.eqb c "0" then zero_value t
    else match consts c with Some z => int32_value t z | None => None end
  | [a; b] => match t with TScalar KString => if String.eqb (a ++ b) (text quotes) then Some (Plain (VStr [])) else None | _ => None end
  | _ => conversion ts t
  end.
Definition env := string -> option (string * pointer).
Definition bind (x t : string) (p : pointer) (e : env) : env := fun y => if String.eqb x y then Some (t, p) else e y.
Definition is_method (t f : string) (d : decl) : option method :=
  match d with Method m => if String.eqb (on m) t && String.eqb (mname m) f then Some m else None | _ => None end.
Fixpoint find_method (t f : string) (l : list decl) : option method :=
  match l with [] => None | d :: l => match is_method t f d with Some m => Some m | None => find_method t f l end end.
Definition value (e : env) (x : expr) (t : gtype) : outcome :=
  match x with
  | Select x f => match e x with Some (_, Some s) => Returns (s f) | Some (_, None) => Panics | None => Stuck end
  | Other ts => match constant ts t with Some v => Returns v | None => Stuck end
  end.
(** What a method does, given what the methods do that it calls. *)
Fixpoint run (call : string -> string -> pointer -> outcome) (e : env) (t : gtype) (b : list stmt) : outcome :=
  match b with
  | [] => Stuck
  | Return x :: _ => value e x t
  | ReturnIf (NotNil x) r :: b =>
    match e x with Some (_, Some _) => value e r t | Some (_, None) => run call e t b | None => Stuck end
  | ReturnIf (Holds y x f w) r :: b =>
    match e x with
    | Some (tx, p) =>
      match call tx f p with
      | Returns (Points w' q) => if String.eqb w w' then value (bind y w q e) r t else run call e t b
      | Returns NoValue => run call e t b
      | Returns (Plain _) => Stuck
      | o => o
      end
    | None => Stuck
    end
  end.
(** x.f() for an x of type *t; [depth]: of nested calls. *)
Fixpoint call (depth : nat) (t f : string) (p : pointer) : outcome :=
  match depth with
  | O => Stuck
  | S depth =>
    match find_method t f ds with
    | Some m =>
      match parse_type (result m) with
      | Some r => run (call depth) (bind (var m) t p (fun _ => None)) r (mbody m)
      | None => Stuck
      end
    | None => Stuck
    end
  end.
End Run.

(** ** Interfaces: the types whose methods include those of an interface. *)
Definition has_method (ds : list decl) (t f : string) : Prop :=
  In (Marker t f) ds \/ exists m, In (Method m) ds /\ on m = t /\ mname m = f.
Definition implements (ds : list decl) (t i : string) : Prop :=
  exists fs, In (Interface i fs) ds /\ forall f, In f fs -> has_method ds t f.
