(** Execution of the Go files of GoCode.v, statement by statement, over a heap of structs.

    Simplifications: a slice is a value (type of its elements, nil or a list); in the code every slice has one
    holder and is only used in "x = append(x, ...)", "x = x[:n]", indexing and reading, so sharing of the
    underlying array cannot be observed.  Positions given to SyntaxError are 0; the code ignores them. *)
From Coq Require Import String List NArith ZArith Bool Arith.
From Verif Require Import Lexer Grammar Utf8 Strs Mime GoTime Parser Walker GoSyntax GoCode.
Import ListNotations.

(** ** Values, objects, states *)
(* /repo: values of error: walker.go:44, month.go:43, obs_zone.go:42, day.go:20, offset.go:30, encoded_word.go:16 *)
Inductive goerr : Type :=
| ErrText (text : gostring)          (* fmt.Errorf, errors.New *)
| ErrAtoi                            (* strconv.Atoi *)
| ErrDuration                        (* time.ParseDuration *)
| ErrDecode.                         (* mime.WordDecoder.Decode *)

(* /repo: the values that expressions of the files *.go have *)
Inductive val : Type :=
| VNil
| VInt (z : Z)
| VBool (b : bool)
| VStr (s : gostring)
| VPtr (l : nat)                               (* pointer to the object number l *)
| VSlice (t : gty) (l : option (list val))     (* None: nil *)
| VTuple (l : list val)                        (* several results *)
| VErr (e : goerr)
| VLocation (l : location)                     (* *time.Location *)
| VTime (t : time)
| VDuration (d : Z)                            (* time.Duration, nanoseconds *)
| VSeconds (d : Z)                             (* float64: d nanoseconds in seconds *)
| VNow                                         (* time.Now() *)
| VReader (r : charset_reader)                 (* CharsetReader *)
| VCtx (r : rule) (ch : list tree)             (* a context of the parse tree *)
| VTok (t : tok)                               (* a terminal node *)
| VConsole                                     (* antlr.ConsoleErrorListener *)
| VLib (t : string) (s : gostring).            (* input stream, lexer, token stream of an input *)

(* /repo: structs *)
Record obj : Type := mkObj { o_type : string; o_fields : list (string * val) }.
(** The heap and what was printed. *)
(* /repo: the state of a Go process, as far as the files *.go use it *)
Record gst : Type := mkGst { heap : list obj; printed : list gostring }.

(* /repo: results of an evaluation; Stuck: not a Go program (or not modelled) *)
Inductive out (A : Type) : Type :=
| Ok (a : A) (s : gst)
| Panics
| Stuck.
Arguments Ok {A}. Arguments Panics {A}. Arguments Stuck {A}.
(* /repo: sequencing *)
Definition bind {A B} (m : out A) (k : A -> gst -> out B) : out B :=
  match m with Ok a s => k a s | Panics => Panics | Stuck => Stuck end.
Notation "'do' x , s <- m ; k" := (bind m (fun x s => k)) (at level 200, x pattern, s name, m at level 100, k at level 200).

(** ** Heap, fields, variables *)
(* /repo: reading through a pointer *)
Definition load (s : gst) (l : nat) : option obj := nth_error (heap s) l.
(* /repo: writing through a pointer *)
Fixpoint replace (l : nat) (o : obj) (h : list obj) : list obj :=
  match h, l with [], _ => [] | _ :: h', O => o :: h' | x :: h', S l' => x :: replace l' o h' end.
(* /repo: writing through a pointer *)
Definition store (s : gst) (l : nat) (o : obj) : gst := mkGst (replace l o (heap s)) (printed s).
(* /repo: &T{...} *)
Definition alloc (s : gst) (o : obj) : gst := mkGst (heap s ++ [o]) (printed s).
(* /repo: the console listener of the ANTLR runtime *)
Definition print (s : gst) (m : gostring) : gst := mkGst (heap s) (printed s ++ [m]).

(* /repo: fields and variables *)
Fixpoint assoc {A} (x : string) (l : list (string * A)) : option A :=
  match l with [] => None | (y, v) :: l' => if String.eqb x y then Some v else assoc x l' end.
(* /repo: assignment to a field or variable *)
Fixpoint update {A} (x : string) (v : A) (l : list (string * A)) : list (string * A) :=
  match l with [] => [] | (y, u) :: l' => if String.eqb x y then (y, v) :: l' else (y, u) :: update x v l' end.

(** Zero values. *)
(* /repo: var declarations and struct literals *)
Definition zero (t : gty) : val :=
  match t with
  | TName n => if String.eqb n "string" then VStr [] else if String.eqb n "int" then VInt 0
               else if String.eqb n "time.Month" then VInt 0 else if String.eqb n "bool" then VBool false else VNil
  | TPtr _ => VNil
  | TSlice t' => VSlice t' None
  end.

(** The library structs that the code makes. *)
(* /repo: address.go:14, encoded_word.go:14 *)
Definition lib_structs : list (string * list (string * gty)) :=
  [("mail.Address", [("Name", TName "string"); ("Address", TName "string")]);
   ("mime.WordDecoder", [("CharsetReader", TName "func")])]%string.

(* /repo: struct literals *)
Definition make (P : program) (t : string) (fs : list (string * val)) : option obj :=
  match assoc t (p_structs P ++ lib_structs)%list with
  | Some ts => Some (mkObj t (map (fun d => (fst d, match assoc (fst d) fs with Some v => v | None => zero (snd d) end)) ts))
  | None => None
  end.

(** ** Types and methods *)
(* /repo: identity of types *)
Fixpoint gty_eqb (a b : gty) : bool :=
  match a, b with
  | TName x, TName y => String.eqb x y
  | TPtr x, TPtr y => gty_eqb x y
  | TSlice x, TSlice y => gty_eqb x y
  | _, _ => false
  end.
(* /repo: identity of types *)
Fixpoint gtys_eqb (a b : list gty) : bool :=
  match a, b with [], [] => true | x :: a', y :: b' => gty_eqb x y && gtys_eqb a' b' | _, _ => false end.

(* /repo: methods of a type itself *)
Definition own_method (P : program) (t m : string) : option fn :=
  option_map snd (find (fun d => String.eqb (fst (fst d)) t && String.eqb (snd (fst d)) m) (p_methods P)).
(** A type's own methods hide those of the types embedded in it. *)
(* /repo: walker.go:13-15: promoted methods *)
Definition find_method (P : program) (t m : string) : option fn :=
  match own_method P t m with
  | Some f => Some f
  | None =>
      match flat_map (fun d => if String.eqb (fst d) t then match own_method P (snd d) m with Some f => [f] | None => [] end else []) (p_embeds P) with
      | f :: _ => Some f
      | [] => None
      end
  end.

(** Does a pointer to [t] have all methods of the interface? *)
(* /repo: "if parent, ok := w.parent().(withX); ok" and the like *)
Definition implements (P : program) (t : string) (i : iface) : bool :=
  forallb (fun d => match find_method P t (fst d) with Some f => gtys_eqb (map snd (f_params f)) (snd d) | None => false end) i.

(** The named type whose methods a value has. *)
(* /repo: dynamic types *)
Definition type_name (s : gst) (v : val) : option string :=
  match v with
  | VPtr l => option_map o_type (load s l)
  | VCtx r _ => Some (context_type r)
  | VTok _ => Some "antlr.TerminalNode"%string
  | VDuration _ => Some "time.Duration"%string
  | VNow => Some "time.Time"%string
  | VLib t _ => Some t
  | _ => None
  end.

(** e.(T); None: a panic *)
(* /repo: addr_spec.go:32, parser.go:39 and :61 *)
Definition is_type (s : gst) (v : val) (t : gty) : bool :=
  match t, v with
  | TPtr (TName n), VPtr l => match load s l with Some o => String.eqb (o_type o) n | None => false end
  | TSlice t', VSlice t'' _ => gty_eqb t' t''
  | TName n, VTime _ => String.eqb n "time.Time"
  | _, _ => false
  end.

(** ** Operators *)
(** int arithmetic wraps around, except that subtraction, which is only used in len(x)-1, is exact: a Go slice has
    fewer than 2^63 elements. *)
(* /repo: operators in the files *.go *)
Definition binary (o : binop) (a b : val) : option val :=
  match o, a, b with
  | OAdd, VInt x, VInt y => Some (VInt (i64 (x + y)))
  | OAdd, VStr x, VStr y => Some (VStr (x ++ y))
  | OSub, VInt x, VInt y => Some (VInt (x - y))
  | OMul, VInt x, VInt y => Some (VInt (i64 (x * y)))
  | ORem, VInt x, VInt y => if Z.eqb y 0 then None else Some (VInt (Z.rem x y))
  | OEq, VInt x, VInt y => Some (VBool (Z.eqb x y))
  | OEq, VStr x, VStr y => Some (VBool (eqb_str x y))
  | ONe, VErr _, VNil => Some (VBool true)
  | ONe, VNil, VNil => Some (VBool false)
  | OGt, VInt x, VInt y => Some (VBool (Z.ltb y x))
  | _, _, _ => None
  end.

(** ** The library *)
(** fmt.Sprintf with the verb %v and string arguments. *)
(* /repo: angle_addr.go:14, mailbox.go:19, obs_angle_addr.go:16, offset.go:30, walker.go:44 *)
Fixpoint sprintf (f : gostring) (args : list val) : option gostring :=
  match f with
  | [] => match args with [] => Some [] | _ => None end
  | c :: f' =>
      if N.eqb c 37 then
        match f', args with
        | v :: f'', VStr s :: args' => if N.eqb v 118 then option_map (app s) (sprintf f'' args') else None
        | _, _ => None
        end
      else option_map (cons c) (sprintf f' args)
  end.

(* /repo: the elements of a []string *)
Fixpoint strs (l : list val) : option (list gostring) :=
  match l with
  | [] => Some []
  | VStr s :: l' => option_map (cons s) (strs l')
  | _ => None
  end.
(* /repo: the elements of a slice *)
Definition members (l : option (list val)) : list val := match l with Some l' => l' | None => [] end.

(* /repo: month.go:20-41, date_time.go:49, parser.go:25, encoded_word.go:14 *)
Definition global (e : wenv) (x : string) : option val :=
  assoc x
    [("CharsetReader", VReader (reader e)); ("time.UTC", VLocation UTC);
     ("time.January", VInt 1); ("time.February", VInt 2); ("time.March", VInt 3); ("time.April", VInt 4);
     ("time.May", VInt 5); ("time.June", VInt 6); ("time.July", VInt 7); ("time.August", VInt 8);
     ("time.September", VInt 9); ("time.October", VInt 10); ("time.November", VInt 11); ("time.December", VInt 12);
     ("antlr.TokenDefaultChannel", VInt 0); ("antlr.ParseTreeWalkerDefault", VLib "antlr.ParseTreeWalker" [])]%string.

(** Functions of other packages: a value, or an object to be made. *)
(* /repo: the calls in the files *.go *)
Inductive lres : Type := LVal (v : val) | LNew (o : obj).
(* /repo: the calls in the files *.go *)
Definition lib (f : string) (args : list val) : option lres :=
  match assoc f
    [("strings.ToLower", fun a => match a with [VStr s] => Some (LVal (VStr (to_lower s))) | _ => None end);
     ("strings.HasPrefix", fun a => match a with [VStr s; VStr p] => Some (LVal (VBool (has_prefix p s))) | _ => None end);
     ("strings.Join", fun a => match a with
        | [VSlice _ l; VStr sep] => option_map (fun x => LVal (VStr (join sep x))) (strs (members l)) | _ => None end);
     ("strconv.Atoi", fun a => match a with
        | [VStr s] => Some (LVal (VTuple (match atoi s with Some v => [VInt v; VNil] | None => [VInt 0; VErr ErrAtoi] end)))
        | _ => None end);
     ("fmt.Sprintf", fun a => match a with VStr f :: l => option_map (fun x => LVal (VStr x)) (sprintf f l) | _ => None end);
     ("fmt.Errorf", fun a => match a with VStr f :: l => option_map (fun x => LVal (VErr (ErrText x))) (sprintf f l) | _ => None end);
     ("errors.New", fun a => match a with [VStr s] => Some (LVal (VErr (ErrText s))) | _ => None end);
     ("time.FixedZone", fun a => match a with [VStr n; VInt z] => Some (LVal (VLocation (Fixed n z))) | _ => None end);
     ("time.Date", fun a => match a with
        | [VInt y; VInt mo; VInt d; VInt h; VInt mi; VInt s; VInt 0; VLocation l] => Some (LVal (VTime (go_date y mo d h mi s l)))
        | _ => None end);
     ("time.ParseDuration", fun a => match a with
        | [VStr s] => Some (LVal (VTuple (match parse_duration s with Some d => [VDuration d; VNil] | None => [VDuration 0; VErr ErrDuration] end)))
        | _ => None end);
     ("time.Now", fun a => match a with [] => Some (LVal VNow) | _ => None end);
     ("antlr.NewInputStream", fun a => match a with [VStr s] => Some (LVal (VLib "antlr.InputStream" s)) | _ => None end);
     ("parser.NewRFC5322Lexer", fun a => match a with
        | [VLib t s] => if String.eqb t "antlr.InputStream" then Some (LVal (VLib "parser.RFC5322Lexer" s)) else None | _ => None end);
     ("antlr.NewCommonTokenStream", fun a => match a with
        | [VLib t s; VInt 0] => if String.eqb t "parser.RFC5322Lexer" then Some (LVal (VLib "antlr.CommonTokenStream" s)) else None | _ => None end);
     ("parser.NewRFC5322Parser", fun a => match a with
        | [VLib t s] => if String.eqb t "antlr.CommonTokenStream"
            then Some (LNew (mkObj "parser.RFC5322Parser" [("input", VStr s); ("listeners", VSlice (TName "antlr.ErrorListener") (Some [VConsole]))]))
            else None | _ => None end)]%string
  with Some g => g args | None => None end.

(** What p.AddressList() and p.DateTime() do: the lexer and the parser report errors to their listeners, and a tree
    is returned.  A world says what happens for each start rule and input. *)
(* /repo: parser.go:32, parser.go:55 *)
Record run : Type := mkRun { lexer_errors : list gostring; parser_errors : list gostring; made : tree }.
(* /repo: parser.go:32, parser.go:55 *)
Definition world : Type := rule -> gostring -> run.

(** Methods of library types: a value; new fields of the receiver; a run of the parser; a walk of a tree. *)
(* /repo: the calls in the files *.go *)
Inductive mres : Type := MVal (v : val) | MSet (fs : list (string * val)) | MRun (r : rule) | MWalk (l : val) (r : rule) (ch : list tree).
(* /repo: the calls in the files *.go *)
Definition lib_method (e : wenv) (recv : val) (fs : list (string * val)) (t m : string) (args : list val) : option mres :=
  match recv, args with
  | VCtx _ ch, [] => if String.eqb m "GetText" then Some (MVal (VStr (get_text ch))) else None
  | VCtx _ ch, [VInt k] =>                       (* children that are tokens of this type *)
      if String.eqb m "GetTokens" then Some (MVal (VSlice (TName "antlr.TerminalNode")
        (Some (flat_map (fun c => match c with Leaf x => if Z.eqb (Z.of_N (tt x)) k then [VTok x] else [] | Node _ _ => [] end) ch)))) else None
  | VTok x, [] => if String.eqb m "GetText" then Some (MVal (VStr (tok_text x))) else None
  | VDuration d, [] => if String.eqb m "Seconds" then Some (MVal (VSeconds d)) else None
  | VNow, [] => if String.eqb m "Year" then Some (MVal (VInt (now_year e))) else None
  | VLib k _, [l; VCtx r ch] => if String.eqb k "antlr.ParseTreeWalker" && String.eqb m "Walk" then Some (MWalk l r ch) else None
  | VPtr _, [] =>
      if String.eqb t "parser.RFC5322Parser" then
        if String.eqb m "RemoveErrorListeners" then Some (MSet (update "listeners"%string (VSlice (TName "antlr.ErrorListener") (Some [])) fs))
        else if String.eqb m "AddressList" then Some (MRun R_addressList)
        else if String.eqb m "DateTime" then Some (MRun R_dateTime)
        else None
      else None
  | VPtr _, [VPtr l] =>
      if String.eqb t "parser.RFC5322Parser" && String.eqb m "AddErrorListener" then
        match assoc "listeners"%string fs with
        | Some (VSlice y (Some ls)) => Some (MSet (update "listeners"%string (VSlice y (Some (ls ++ [VPtr l]))) fs))
        | _ => None
        end
      else None
  | VPtr _, [VStr s] =>
      if String.eqb t "mime.WordDecoder" && String.eqb m "Decode" then
        match assoc "CharsetReader"%string fs with
        | Some (VReader cr) => Some (MVal (VTuple (match word_decode cr s with Some x => [VStr x; VNil] | None => [VStr []; VErr ErrDecode] end)))
        | _ => None
        end
      else None
  | _, _ => None
  end.

(** ParseTreeWalker.Walk: [call recv m args] calls a method. *)
(* /repo: parser.go:37, parser.go:60; ANTLR runtime, ParseTreeWalker.Walk, EnterRule, ExitRule *)
Fixpoint walk_tree (call : val -> string -> list val -> gst -> out val) (w : val) (t : tree) (s : gst) : out unit :=
  match t with
  | Leaf x => do _, s <- call w "VisitTerminal"%string [VTok x] s; Ok Datatypes.tt s
  | Node r ch =>
      do _, s <- call w "EnterEveryRule"%string [VCtx r ch] s;
      do _, s <- call (VCtx r ch) "EnterRule"%string [w] s;
      do _, s <- (fix walks (f : list tree) (s : gst) : out unit :=
                    match f with [] => Ok Datatypes.tt s | t :: f' => do _, s <- walk_tree call w t s; walks f' s end) ch s;
      do _, s <- call (VCtx r ch) "ExitRule"%string [w] s;
      do _, s <- call w "ExitEveryRule"%string [VCtx r ch] s;
      Ok Datatypes.tt s
  end.

(** Each error of the parser goes to every listener, in order. *)
(* /repo: parser.go:28-29; ANTLR runtime, BaseParser.NotifyErrorListeners, ProxyErrorListener *)
Fixpoint notify (call : val -> string -> list val -> gst -> out val) (ls : list val) (m : gostring) (s : gst) : out unit :=
  match ls with
  | [] => Ok Datatypes.tt s
  | VConsole :: ls' => notify call ls' m (print s m)
  | l :: ls' => do _, s <- call l "SyntaxError"%string [VNil; VNil; VInt 0; VInt 0; VStr m; VNil] s; notify call ls' m s
  end.
(* /repo: parser.go:28-29; ANTLR runtime, BaseParser.NotifyErrorListeners *)
Fixpoint notify_all (call : val -> string -> list val -> gst -> out val) (ls : list val) (ms : list gostring) (s : gst) : out unit :=
  match ms with [] => Ok Datatypes.tt s | m :: ms' => do _, s <- notify call ls m s; notify_all call ls ms' s end.

(** ** Execution *)
Section Run.
Context (P : program) (e : wenv) (wd : world).

(* /repo: the variables of a function *)
Definition locals : Type := list (string * val).
(** The variables declared in a block end with it. *)
(* /repo: blocks *)
Definition leave (ev ev' : locals) : locals := skipn (length ev' - length ev) ev'.

(** [n] bounds the depth of nested evaluation; a run that needs more is Stuck. *)
(* /repo: the files *.go *)
Fixpoint eval (n : nat) (ev : locals) (x : gexpr) (s : gst) {struct n} : out val :=
  match n with
  | O => Stuck
  | S n =>
      match x with
      | EVar y => match assoc y ev with Some v => Ok v s | None => Stuck end
      | EStr t => Ok (VStr (bs t)) s
      | EInt z => Ok (VInt z) s
      | EBool b => Ok (VBool b) s
      | ENil => Ok VNil s
      | EConst t => Ok (VInt (Z.of_N t)) s
      | EEmpty t => Ok (VSlice t (Some [])) s
      | EField a f =>
          do v, s <- eval n ev a s;
          match v with
          | VPtr l => match load s l with
                      | Some o => match assoc f (o_fields o) with Some u => Ok u s | None => Stuck end
                      | None => Stuck end
          | VNil => Panics
          | _ => Stuck
          end
      | ENew t fs =>
          do vs, s <- evals n ev (map snd fs) s;
          match make P t (combine (map fst fs) vs) with
          | Some o => Ok (VPtr (length (heap s))) (alloc s o)
          | None => Stuck
          end
      | EStruct t fs => match fs with [] => if String.eqb t "time.Time" then Ok (VTime zero_time) s else Stuck | _ => Stuck end
      | EBin OAnd a b =>
          do v, s <- eval n ev a s;
          match v with VBool true => eval n ev b s | VBool false => Ok (VBool false) s | _ => Stuck end
      | EBin OOr a b =>
          do v, s <- eval n ev a s;
          match v with VBool true => Ok (VBool true) s | VBool false => eval n ev b s | _ => Stuck end
      | EBin o a b =>
          do u, s <- eval n ev a s;
          do v, s <- eval n ev b s;
          match binary o u v with Some x => Ok x s | None => Stuck end
      | ENot a => do v, s <- eval n ev a s; match v with VBool b => Ok (VBool (negb b)) s | _ => Stuck end
      | ENeg a => do v, s <- eval n ev a s; match v with VInt z => Ok (VInt (i64 (- z))) s | _ => Stuck end
      | EGlobal y => match global e y with Some v => Ok v s | None => Stuck end
      | ECall f args =>
          do vs, s <- evals n ev args s;
          match lib f vs with
          | Some (LVal v) => Ok v s
          | Some (LNew o) => Ok (VPtr (length (heap s))) (alloc s o)
          | None => Stuck
          end
      | EMethod a m args =>
          do v, s <- eval n ev a s;
          do vs, s <- evals n ev args s;
          invoke n v m vs s
      | EAssert a t => do v, s <- eval n ev a s; if is_type s v t then Ok v s else Panics
      | EIndex a i =>
          do u, s <- eval n ev a s;
          do v, s <- eval n ev i s;
          match u, v with
          | VSlice _ l, VInt z =>
              if Z.ltb z 0 then Panics
              else match nth_error (members l) (Z.to_nat z) with Some x => Ok x s | None => Panics end
          | _, _ => Stuck
          end
      | ESlice a i j =>
          do u, s <- eval n ev a s;
          do v, s <- eval n ev i s;
          do w, s <- eval n ev j s;
          match u, v, w with
          | VStr t, VInt x, VInt y =>
              if Z.leb 0 x && Z.leb x y && Z.leb y (Z.of_nat (length t))
              then Ok (VStr (firstn (Z.to_nat y - Z.to_nat x) (skipn (Z.to_nat x) t))) s else Panics
          | VSlice t l, VInt 0, VInt y =>
              if Z.ltb y 0 then Panics
              else if Z.leb y (Z.of_nat (length (members l))) then Ok (VSlice t (option_map (firstn (Z.to_nat y)) l)) s else Stuck
          | _, _, _ => Stuck
          end
      | ELen a =>
          do v, s <- eval n ev a s;
          match v with
          | VStr t => Ok (VInt (Z.of_nat (length t))) s
          | VSlice _ l => Ok (VInt (Z.of_nat (length (members l)))) s
          | _ => Stuck
          end
      | EToInt a => do v, s <- eval n ev a s; match v with VSeconds d => Ok (VInt (duration_seconds d)) s | _ => Stuck end
      | EAppend a b =>
          do u, s <- eval n ev a s;
          do v, s <- eval n ev b s;
          match u with VSlice t l => Ok (VSlice t (Some (members l ++ [v]))) s | _ => Stuck end
      | EAppendAll a b =>
          do u, s <- eval n ev a s;
          do v, s <- eval n ev b s;
          match u, v with
          | VSlice t l, VSlice t' l' =>
              if gty_eqb t t' then
                Ok (VSlice t (match l, members l' with None, [] => None | _, xs => Some (members l ++ xs) end)) s
              else Stuck
          | _, _ => Stuck
          end
      end
  end
with evals (n : nat) (ev : locals) (xs : list gexpr) (s : gst) {struct n} : out (list val) :=
  match n with
  | O => Stuck
  | S n =>
      match xs with
      | [] => Ok [] s
      | x :: xs' => do v, s <- eval n ev x s; do vs, s <- evals n ev xs' s; Ok (v :: vs) s
      end
  end
with exec (n : nat) (ev : locals) (c : gstmt) (s : gst) {struct n} : out (locals * option val) :=
  match n with
  | O => Stuck
  | S n =>
      match c with
      | SVar x t => Ok ((x, zero t) :: ev, None) s
      | SDefine xs a =>
          do v, s <- eval n ev a s;
          match xs, v with
          | [x], _ => Ok ((x, v) :: ev, None) s
          | [x; y], VTuple [u; v'] => Ok ((x, u) :: (y, v') :: ev, None) s
          | _, _ => Stuck
          end
      | SAssign l a => do v, s <- eval n ev a s; assign n ev l v s
      | SAddAssign l a =>
          do u, s <- eval n ev l s;
          do v, s <- eval n ev a s;
          match binary OAdd u v with Some x => assign n ev l x s | None => Stuck end
      | SExpr a => do _, s <- eval n ev a s; Ok (ev, None) s
      | SIf a b c =>
          do v, s <- eval n ev a s;
          match v with
          | VBool t => do r, s <- execs n ev (if t then b else c) s; Ok (leave ev (fst r), snd r) s
          | _ => Stuck
          end
      | SIfIs x a i b =>
          do v, s <- eval n ev a s;
          match type_name s v with
          | Some t =>
              if implements P t i
              then do r, s <- execs n ((x, v) :: ev) b s; Ok (leave ev (fst r), snd r) s
              else Ok (ev, None) s
          | None => Stuck
          end
      | SRange x a b =>
          do v, s <- eval n ev a s;
          match v with
          | VSlice _ l =>
              (fix loop (vs : list val) (ev : locals) (s : gst) : out (locals * option val) :=
                 match vs with
                 | [] => Ok (ev, None) s
                 | v :: vs' =>
                     do r, s <- execs n ((x, v) :: ev) b s;
                     match snd r with
                     | Some u => Ok (leave ev (fst r), Some u) s
                     | None => loop vs' (leave ev (fst r)) s
                     end
                 end) (members l) ev s
          | _ => Stuck
          end
      | SSwitch a cs d =>
          do v, s <- eval n ev a s;
          (fix pick (cs : list (gexpr * list gstmt)) (s : gst) : out (locals * option val) :=
             match cs with
             | [] => do r, s <- execs n ev d s; Ok (leave ev (fst r), snd r) s
             | (l, b) :: cs' =>
                 do u, s <- eval n ev l s;
                 match binary OEq v u with
                 | Some (VBool true) => do r, s <- execs n ev b s; Ok (leave ev (fst r), snd r) s
                 | Some (VBool false) => pick cs' s
                 | _ => Stuck
                 end
             end) cs s
      | SReturn es =>
          do vs, s <- evals n ev es s;
          Ok (ev, Some (match vs with [v] => v | _ => VTuple vs end)) s
      end
  end
with execs (n : nat) (ev : locals) (cs : list gstmt) (s : gst) {struct n} : out (locals * option val) :=
  match n with
  | O => Stuck
  | S n =>
      match cs with
      | [] => Ok (ev, None) s
      | c :: cs' =>
          do r, s <- exec n ev c s;
          match snd r with Some v => Ok r s | None => execs n (fst r) cs' s end
      end
  end
with assign (n : nat) (ev : locals) (l : gexpr) (v : val) (s : gst) {struct n} : out (locals * option val) :=
  match n with
  | O => Stuck
  | S n =>
      match l with
      | EVar x => match assoc x ev with Some _ => Ok (update x v ev, None) s | None => Stuck end
      | EField a f =>
          do u, s <- eval n ev a s;
          match u with
          | VPtr p => match load s p with
                      | Some o => match assoc f (o_fields o) with
                                  | Some _ => Ok (ev, None) (store s p (mkObj (o_type o) (update f v (o_fields o))))
                                  | None => Stuck end
                      | None => Stuck end
          | VNil => Panics
          | _ => Stuck
          end
      | _ => Stuck
      end
  end
with invoke (n : nat) (recv : val) (m : string) (args : list val) (s : gst) {struct n} : out val :=
  match n with
  | O => Stuck
  | S n =>
      match recv with
      | VNil => Panics
      | _ =>
          match type_name s recv with
          | None => Stuck
          | Some t =>
              match find_method P t m with
              | Some f =>
                  do r, s <- execs n ((f_recv f, recv) :: combine (map fst (f_params f)) args) (f_body f) s;
                  Ok (match snd r with Some v => v | None => VTuple [] end) s
              | None =>
                  let fs := match recv with VPtr l => match load s l with Some o => o_fields o | None => [] end | _ => [] end in
                  match lib_method e recv fs t m args with
                  | Some (MVal v) => Ok v s
                  | Some (MSet fs') => match recv with VPtr l => Ok (VTuple []) (store s l (mkObj t fs')) | _ => Stuck end
                  | Some (MRun r) =>
                      match assoc "input"%string fs, assoc "listeners"%string fs with
                      | Some (VStr input), Some (VSlice _ ls) =>
                          let w := wd r input in
                          let s := mkGst (heap s) (printed s ++ lexer_errors w) in
                          do _, s <- notify_all (invoke n) (members ls) (parser_errors w) s;
                          match made w with Node r ch => Ok (VCtx r ch) s | Leaf _ => Stuck end
                      | _, _ => Stuck
                      end
                  | Some (MWalk l r ch) => do _, s <- walk_tree (invoke n) l (Node r ch) s; Ok (VTuple []) s
                  | None => Stuck
                  end
              end
          end
      end
  end.

(** A call of a function of the package. *)
(* /repo: parser.go:19, parser.go:42 *)
Definition call_function (n : nat) (f : string) (args : list val) (s : gst) : out val :=
  match assoc f (p_funcs P) with
  | Some g =>
      do r, s <- execs n (combine (map fst (f_params g)) args) (f_body g) s;
      Ok (match snd r with Some v => v | None => VTuple [] end) s
  | None => Stuck
  end.
End Run.
