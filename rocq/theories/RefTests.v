(** The project's own tests replayed in the model: each Example runs a part of
    /repo/test/test-*.cpp and compares what it gives with the lines that
    /repo/test/test-*-ref.txt records from a run of the program.  These are tests of the
    model, not proofs about the program. *)
From Coq Require Import ZArith List String Bool Floats.SpecFloat.
From Verif Require Import Base ValModel StrModel JsonModel MemModel NumModel ArithModel RangeModel OptModel IniModel GedModel
  XmlModel XmlSpec PathModel StreamModel IndModel GeoModel ShowModel.
Import ListNotations.
Open Scope string_scope.
Open Scope Z_scope.
Open Scope list_scope.

(** [cout << x], for values without floats. *)
Definition no_float (f : spec_float) : str := [].
(** What the variable [n] prints as after the program. *)
Definition shows (n : nat) (p : list stmt) : option str :=
  match MemModel.run p start with
  | ROk _ s => match nth_error (stk s) n with
               | Some x => match MemModel.value x s with
                           | ROk v _ => Some (format no_float v 0)
                           | _ => None
                           end
               | None => None
               end
  | _ => None
  end.
(** Lines of text. *)
Fixpoint lines (l : list string) : str :=
  match l with
  | [] => []
  | [x] => txt x
  | x :: t => (txt x ++ [10] ++ lines t)%list
  end.
Local Notation S_ s := (EStr (txt s)).
Local Notation I_ z := (ENum (VInt z)).
Local Notation "$ n" := (EVar n) (at level 1).

(** /repo/test/test-var.cpp: [arg], from the command line of test-var.cmake. *)
Definition args : list stmt :=
  [SDecl ENil; SPush $0 (S_ "./test-var"); SPush $0 (S_ "one"); SPush $0 (S_ "two");
   SPush $0 (S_ "three")].
Example var_1 : shows 0 args =
  Some (lines ["["; "  ""./test-var"","; "  ""one"","; "  ""two"","; "  ""three"""; "]"]).
Proof. vm_compute. reflexivity. Qed.
Example var_7 : shows 1 (args ++ [SDecl (EIdx $0 0)]) = Some (txt """./test-var""").
Proof. vm_compute. reflexivity. Qed.
Example var_8 : shows 1 (args ++ [SDecl (EIdx (EIdx $0 0) 0)]) = Some (txt "'.'").
Proof. vm_compute. reflexivity. Qed.
Example var_21 : shows 1 ([SDecl (S_ "Hello!"); SDecl (EAt $0 0)]) = Some (txt "'H'").
Proof. vm_compute. reflexivity. Qed.
Example var_22 : shows 1 ([SDecl (S_ "Hello!"); SDecl (EIdx $0 0)]) = Some (txt "'H'").
Proof. vm_compute. reflexivity. Qed.
Example var_23 : shows 0 [SDecl (I_ 4); SPush $0 (I_ 2)] = Some (txt "[4, 2]").
Proof. vm_compute. reflexivity. Qed.
Example var_26 : shows 1 [SDecl (S_ "Hello!"); SDecl $0; SAssign $1 (S_ "New string")] = Some (txt """New string""").
Proof. vm_compute. reflexivity. Qed.
Definition bprog : list stmt := [SDecl (S_ "New string"); SInsert $0 (S_ "ddd") 1].
Example var_62 : shows 0 bprog = Some (txt """Ndddew string""").
Proof. vm_compute. reflexivity. Qed.
Example var_63 : shows 0 (bprog ++ [SAppend $0 (S_ "aaa")]) = Some (txt """Ndddew stringaaa""").
Proof. vm_compute. reflexivity. Qed.
Definition args1 := args ++ [SInsert $0 (S_ "insert") 1].
Example var_64 : shows 0 args1 = Some (lines ["["; "  ""./test-var"","; "  ""insert"","; "  ""one"","; "  ""two"","; "  ""three"""; "]"]).
Proof. vm_compute. reflexivity. Qed.
Definition args2 := args1 ++ [SEval (ERemove $0 0)].
Example var_71 : shows 0 args2 = Some (lines ["["; "  ""insert"","; "  ""one"","; "  ""two"","; "  ""three"""; "]"]).
Proof. vm_compute. reflexivity. Qed.
Definition args3 := args2 ++ [SDecl (EShift $0)].
Example var_77 : shows 0 args3 = Some (lines ["["; "  ""one"","; "  ""two"","; "  ""three"""; "]"]).
Proof. vm_compute. reflexivity. Qed.
Example var_81 : shows 1 args3 = Some (txt """insert""").
Proof. vm_compute. reflexivity. Qed.
Definition args4 := args3 ++ [SDecl $0; SPush $2 (S_ "extra")].
Definition args5 := args4 ++ [SDecl (ECopy $0); SEval (EPop $3)].
Definition extra4 := Some (lines ["["; "  ""one"","; "  ""two"","; "  ""three"","; "  ""extra"""; "]"]).
Example var_95 : shows 2 args4 = extra4.
Proof. vm_compute. reflexivity. Qed.
Example var_101 : shows 0 args4 = extra4.
Proof. vm_compute. reflexivity. Qed.
Example var_107 : shows 3 args5 = Some (lines ["["; "  ""one"","; "  ""two"","; "  ""three"""; "]"]).
Proof. vm_compute. reflexivity. Qed.
Example var_112 : shows 0 args5 = extra4.
Proof. vm_compute. reflexivity. Qed.
Definition xa := [SDecl (I_ 1); SPush $0 (I_ 2); SPush $0 (I_ 3); SPush $0 (I_ 4); SPush $0 (I_ 5)].
Example var_118 : shows 0 xa = Some (txt "[1, 2, 3, 4, 5]").
Proof. vm_compute. reflexivity. Qed.
Example var_119 : shows 0 (xa ++ [SAssign (EIdx $0 1) (EIdx $0 0); SAssign (EIdx $0 3) (I_ 7)]) = Some (txt "[1, 1, 3, 7, 5]").
Proof. vm_compute. reflexivity. Qed.
Example var_120 : shows 0 [SDecl ENil; SPush $0 (S_ "Hi!")] = Some (lines ["["; "  ""Hi!"""; "]"]).
Proof. vm_compute. reflexivity. Qed.
Example var_123 : shows 0 [SDecl ENil; SAssign (EIdx $0 1) (S_ "Hi!")] = Some (lines ["["; "  null,"; "  ""Hi!"""; "]"]).
Proof. vm_compute. reflexivity. Qed.
Definition vmap := [SDecl ENil; SAssign (EKey $0 (S_ "one")) (I_ 1); SAssign (EKey $0 (S_ "two")) (I_ 2);
                    SAssign (EKey $0 (S_ "three")) (I_ 3)].
Example var_127 : shows 1 (vmap ++ [SDecl (EIdx $0 0)]) = Some (txt "1").
Proof. vm_compute. reflexivity. Qed.
Example var_128 : shows 1 (vmap ++ [SDecl (EIdx $0 1)]) = Some (txt "3").
Proof. vm_compute. reflexivity. Qed.
Example var_129 : shows 1 (vmap ++ [SDecl (EKey $0 (S_ "three"))]) = Some (txt "3").
Proof. vm_compute. reflexivity. Qed.
Definition vtext := Some (lines ["{"; "  ""one"": 1,"; "  ""three"": 3,"; "  ""two"": 2"; "}"]).
Example var_130 : shows 0 vmap = vtext.
Proof. vm_compute. reflexivity. Qed.
Example var_135 : shows 1 (vmap ++ [SDecl (ECopy $0)]) = vtext.
Proof. vm_compute. reflexivity. Qed.
Example var_145 : shows 0 [SDecl ENil; SAssign (EIdx (EIdx $0 1) 2) (I_ 3); SAssign (EIdx (EIdx $0 1) 4) (I_ 5)] =
  Some (lines ["["; "  null,"; "  ["; "    null,"; "    null,"; "    3,"; "    null,"; "    5"; "  ]"; "]"]).
Proof. vm_compute. reflexivity. Qed.
Definition wmap := [SDecl ENil; SAssign (EKey (EKey $0 (S_ "one")) (S_ "two")) (S_ "three");
  SAssign (EKey (EKey $0 (S_ "one")) (S_ "four")) (S_ "five")].
Example var_155 : shows 0 wmap =
  Some (lines ["{"; "  ""one"": {"; "    ""four"": ""five"","; "    ""two"": ""three"""; "  }"; "}"]).
Proof. vm_compute. reflexivity. Qed.
Example var_161 : shows 1 (wmap ++ [SDecl (EKey (EKey $0 (S_ "one")) (S_ "two"))]) = Some (txt """three""").
Proof. vm_compute. reflexivity. Qed.
Definition nilpair := [SDecl ENil; SEval (EKey $0 ENil)].
Example var_236 : shows 0 nilpair = Some (txt "{}").
Proof. vm_compute. reflexivity. Qed.
Definition nilpair2 := nilpair ++ [SAssign (EKey $0 (S_ "Hi")) (I_ 3)].
Example var_237 : shows 0 nilpair2 = Some (lines ["{"; "  ""Hi"": 3"; "}"]).
Proof. vm_compute. reflexivity. Qed.
Example var_240 : shows 0 (nilpair2 ++ [SAssign (EKey $0 ENil) (I_ 4)]) = Some (lines ["{"; "  ""Hi"": 3"; "}"]).
Proof. vm_compute. reflexivity. Qed.

(** Strings and sorting, test-var.cpp and lines 33-63 and 88-92 of the output. *)
Local Notation words l := (Ok (map txt l)).
Example var_33 : split 100 (txt "An example string with spaces.") (txt "n") 0 = words ["A"; " example stri"; "g with spaces."].
Proof. vm_compute. reflexivity. Qed.
Example var_38 : split 100 (txt "N:First;Last;;;") (txt ";") 0 = words ["N:First"; "Last"; ""; ""; ""].
Proof. vm_compute. reflexivity. Qed.
Definition wspl := txt "  one two    three  four   ".
Example var_45 : wsplit 100 wspl 0 = words ["one"; "two"; "three"; "four"].
Proof. vm_compute. reflexivity. Qed.
Example var_51 : wsplit 100 wspl 2 = words ["one"; "two    three  four   "].
Proof. vm_compute. reflexivity. Qed.
Example var_55 : wsplit 100 wspl 4 = words ["one"; "two"; "three"; "four   "].
Proof. vm_compute. reflexivity. Qed.
Example var_61 : strip_inplace (txt "  Hello ") = Ok (txt "Hello").
Proof. vm_compute. reflexivity. Qed.
Example var_87 : StrModel.join (map txt ["one"; "two"; "three"]) (txt "-") = txt "one-two-three".
Proof. vm_compute. reflexivity. Qed.
Example var_88 : ValModel.sort (VArr TVar (map (fun s => vstr (txt s)) ["one"; "two"; "three"])) =
  Ok (VArr TVar (map (fun s => vstr (txt s)) ["one"; "three"; "two"])).
Proof. vm_compute. reflexivity. Qed.
(** The characters beyond ASCII stay as they are. *)
Example var_226 : str_toupper (txt "This was mixed cäsÉ") = txt "THIS WAS MIXED CäSÉ" /\
  str_tolower (txt "This was mixed cäsÉ") = txt "this was mixed cäsÉ".
Proof. vm_compute. auto. Qed.
Example var_248 : map (fun s => (Z.of_nat (List.length (txt s)), StrModel.len (txt s)))
    ["This is English"; "C'est Français"; "日本語です"] = [(15, Ok 15); (15, Ok 14); (15, Ok 5)].
Proof. vm_compute. reflexivity. Qed.
(** Arithmetic on elements, lines 23, 119 and 140-144. *)
Example var_23' : arith_in Add (VInt 2) (VInt 2) = (VInt 4, Ok tt).
Proof. vm_compute. reflexivity. Qed.
Example var_119' : num_op Add (VInt 3) (VInt 1) = Ok (VInt 4) /\ num_op Add (VInt 5) (VInt 7) = Ok (VInt 12) /\
  num_op Add (VInt 2) (VInt 10) = Ok (VInt 12).
Proof. vm_compute. auto. Qed.

(** test-json.cpp: what is written is read back and printed alike. *)
Definition o2 : val := VArr TVar (map (fun s => vstr (txt s)) ["Zero"; "One"]).
Definition o3 : val := VMap [(vstr (txt "one"), vstr (txt "One")); (vstr (txt "zero"), vstr (txt "Zero"))].
Definition t4 : str := lines ["["; "  ["; "    ""Zero"","; "    ""One"""; "  ],"; "  {"; "    ""one"": ""One"",";
  "    ""zero"": ""Zero"""; "  }"; "]"].
Definition t5 : str := lines ["{"; "  ""first"": ["; "    ""Zero"","; "    ""One"""; "  ],"; "  ""second"": {";
  "    ""one"": ""One"","; "    ""zero"": ""Zero"""; "  }"; "}"].
Example json_13 : assigns (VNil, VNil) VNil [(vstr (txt "zero"), vstr (txt "Zero")); (vstr (txt "one"), vstr (txt "One"))] = Ok o3.
Proof. vm_compute. reflexivity. Qed.
Example json_21 : format no_float (VArr TVar [o2; o3]) 0 = t4 /\ JsonModel.parse true (t4 ++ [10]) = Ok (VArr TVar [o2; o3]).
Proof. vm_compute. auto. Qed.
Example json_41 : let o5 := VMap [(vstr (txt "first"), o2); (vstr (txt "second"), o3)] in
  format no_float o5 0 = t5 /\ JsonModel.parse true (t5 ++ [10]) = Ok o5.
Proof. vm_compute. auto. Qed.

(** test-ind.cpp. *)
Example ind_1 : map ind_bool [0; -1] = [true; false] /\
  map ind_not [-4; -3; -2; -1; 0; 1; 2; 3; 4] = map (fun x => Ok x) [3; 2; 1; 0; -1; -2; -3; -4; -5].
Proof. vm_compute. auto. Qed.

(** test-config.cpp with the command line of test-config.cmake; getopt has found 'a' and 'c'. *)
Definition cmd : list str := map txt ["-a"; "-c"; "argument"; "file1"; "file2"].
Definition fmt314 (f : spec_float) : str := txt "3.14".
Definition the_options : outcome option_state :=
  let o := option_new (txt "Option testing program") in
  let* o := OptModel.declare fmt314 o 97 (txt "Indicates that an a is pertinent") VNil in
  let* o := OptModel.declare fmt314 o 98 (txt "Similar to a, later in alphabet") VNil in
  let* o := OptModel.declare fmt314 o 99 (txt "An option with an argument") (VFloat (S754_zero false)) in
  OptModel.declare fmt314 o 102 (txt "Skip a few; check it doesn't infer -d or -e") VNil.
Example config_1 : getopt (txt "abc:") cmd = ([(97, None); (99, Some (txt "argument"))], map txt ["file1"; "file2"]).
Proof. vm_compute. reflexivity. Qed.
Example config_7 : (let* o := the_options in let* r := OptModel.parse o (txt "./test-config") cmd in
    match r with Done opts args => Ok (format no_float opts 0, format no_float args 0) | Exits t => Ok (t, []) end) =
  Ok (lines ["{"; "  'a': 1,"; "  'b': null,"; "  'c': ""argument"","; "  'f': null"; "}"],
      lines ["["; "  ""file1"","; "  ""file2"""; "]"]).
Proof. vm_compute. reflexivity. Qed.
(** The file test-config.cnf. *)
Definition cnf : str := lines ["[Main]"; "integer = 2"; "string  = This is a string"; ""; "[Test]"; "float = 2.3"; "integer = 23";
  ";double = 3.2"; "string = A test string"; ""].
Definition after_config : outcome val :=
  let* (s, _) := config_ctor VNil (vstr (txt "Test")) in configFile s cnf.
Definition Test := vstr (txt "Test").
Example config_17 : (let* s := after_config in config_get s Test (vstr (txt "integer"))) =
  (let* s := after_config in Ok (s, vstr (txt "23"))).
Proof. vm_compute. reflexivity. Qed.
Example config_18 : (let* s := after_config in config_num TInt s Test (vstr (txt "integer")) (VInt 100)) =
  (let* s := after_config in Ok (s, VInt 23)).
Proof. vm_compute. reflexivity. Qed.
Example config_19 : (let* s := after_config in config_get s Test (vstr (txt "double"))) =
  (let* s := after_config in Ok (s, VNil)).
Proof. vm_compute. reflexivity. Qed.
Example config_21 : (let* s := after_config in let* (s, sec) := configSection s Test in let* (_, d) := subscript s sec in Ok (format no_float d 0)) =
  Ok (lines ["{"; "  ""float"": ""2.3"","; "  ""integer"": ""23"","; "  ""string"": ""A test string"""; "}"]).
Proof. vm_compute. reflexivity. Qed.

(** test-file.cpp: test.txt, test.ini, test.ged and test.xml. *)
Example file_7 : txt_read (lines ["Line one."; "Line two."; ""]) = words ["Line one."; "Line two."].
Proof. vm_compute. reflexivity. Qed.
Example file_11 : (let* v := ini_read (lines ["#"; "# A test .ini file"; "#"; "[section1]"; "key = val"; "another key = another val"; "";
    "[section2]"; "key = val"; ""]) in Ok (format no_float v 0)) =
  Ok (lines ["{"; "  ""section1"": {"; "    ""another key"": ""another val"","; "    ""key"": ""val"""; "  },";
    "  ""section2"": {"; "    ""key"": ""val"""; "  }"; "}"]).
Proof. vm_compute. reflexivity. Qed.
Definition simpsons : str := lines ["0 HEAD"; "1 SOUR Phil Garner"; "1 CHAR ANSEL"; "0 @IND00003@ INDI"; "1 NAME Homer /Simpson/";
  "1 SEX M"; "1 FAMS @FAM00001@"; "0 @IND00004@ INDI"; "1 NAME Marge /Simpson/"; "1 SEX F"; "1 FAMS @FAM00001@";
  "0 @IND00001@ INDI"; "1 NAME Bart /Simpson/"; "1 SEX M"; "1 FAMC @FAM00001@"; "0 @IND00002@ INDI"; "1 NAME Lisa /Simpson/";
  "1 SEX F"; "1 FAMC @FAM00001@"; "0 @FAM00001@ FAM"; "1 HUSB @IND00003@"; "1 CHIL @IND00001@"; "1 WIFE @IND00004@";
  "1 CHIL @IND00002@"; "0 TRLR"; ""].
Example file_21 : (let* v := ged_read simpsons in Ok (format no_float v 0)) =
  Ok (lines ["{"; "  ""Family"": ["; "    {"; "      ""CHIL"": [2, 3],"; "      ""HUSB"": 0,"; "      ""WIFE"": 1"; "    }"; "  ],";
    "  ""Individual"": [";
    "    {"; "      ""NAME"": ""Homer /Simpson/"","; "      ""SEX"": ""M"","; "      ""TITL"": null"; "    },";
    "    {"; "      ""NAME"": ""Marge /Simpson/"","; "      ""SEX"": ""F"","; "      ""TITL"": null"; "    },";
    "    {"; "      ""NAME"": ""Bart /Simpson/"","; "      ""SEX"": ""M"","; "      ""TITL"": null"; "    },";
    "    {"; "      ""NAME"": ""Lisa /Simpson/"","; "      ""SEX"": ""F"","; "      ""TITL"": null"; "    }";
    "  ]"; "}"]).
Proof. vm_compute. reflexivity. Qed.
(** test.xml as expat delivers it line by line, and what test-file prints of it. *)
Definition doc : XmlSpec.node :=
  let t s := Text (txt s) in
  let a l := map (fun p => (txt (fst p), txt (snd p))) l in
  Elem (txt "test") (a [("id", "ident")])
    [t "  "; Elem (txt "element1") (a [("style", "fat"); ("size", "small")]) [t "This is element 1"];
     t "  "; Elem (txt "element2") (a [("style", "red"); ("size", "large")]) [t "    "; t "&"; t " This is"; t "    element 2"; t "  "];
     t "  "; Elem (txt "element3") [] []].
(** The value of an element in the store. *)
Fixpoint out (fuel : nat) (st : list xelem) (i : item) : val :=
  match fuel, i with
  | O, _ => VNil
  | S _, IText s => vstr s
  | S f, IElem id => match nth_error st id with
                     | None => VNil
                     | Some e => VArr TVar [x_name e; x_attr e; vstr (txt "text");
                                            match x_data e with [] => VNil | d => VArr TVar (map (out f st) d) end]
                     end
  end.
Example file_49 : (let* (st, root) := xml_parse (events doc) in
    match root with Some id => Ok (format no_float (out 9 st (IElem id)) 0) | None => Ok [] end) =
  Ok (lines ["["; "  ""test"","; "  {"; "    ""id"": ""ident"""; "  },"; "  ""text"","; "  ["; "    ""  "","; "    ["; "      ""element1"",";
    "      {"; "        ""size"": ""small"","; "        ""style"": ""fat"""; "      },"; "      ""text"","; "      [";
    "        ""This is element 1"""; "      ]"; "    ],"; "    ""  "","; "    ["; "      ""element2"","; "      {";
    "        ""size"": ""large"","; "        ""style"": ""red"""; "      },"; "      ""text"","; "      ["; "        ""    "",";
    "        ""&"","; "        "" This is"","; "        ""    element 2"","; "        ""  """; "      ]"; "    ],"; "    ""  "",";
    "    ["; "      ""element3"","; "      null,"; "      ""text"","; "      null"; "    ]"; "  ]"; "]"]).
Proof. vm_compute. reflexivity. Qed.

(** test-path.cpp on the directory it lists. *)
Definition cmake : PathModel.node :=
  Dir (map (fun s => (txt s, File)) ["KissFFT.cmake"; "FindSndFile.cmake"; "cfind.sh"; "FindQwt.cmake"]).
Definition listed : str := lines ["{"; "  ""../../cmake/FindQwt.cmake"": null,"; "  ""../../cmake/FindSndFile.cmake"": null,";
  "  ""../../cmake/KissFFT.cmake"": null,"; "  ""../../cmake/cfind.sh"": null"; "}"].
Example path_2 : (let* v := PathModel.dir (txt "../../cmake") (Some cmake) false in Ok (format no_float v 0)) = Ok listed.
Proof. vm_compute. reflexivity. Qed.
Example path_9 : (let* v := rdir (txt "../../cmake") (Some cmake) false in Ok (format no_float v 0)) = Ok listed.
Proof. vm_compute. reflexivity. Qed.
Example path_16 : (let* v := PathModel.tree (txt "../../cmake") (Some cmake) in Ok (format no_float v 0)) =
  Ok (lines ["{"; "  ""FindQwt.cmake"": null,"; "  ""FindSndFile.cmake"": null,"; "  ""KissFFT.cmake"": null,"; "  ""cfind.sh"": null"; "}"]).
Proof. vm_compute. reflexivity. Qed.

(** test-stream.cpp: writing, and after the numbers have been read the rest of it. *)
Definition iostr : varstream := write (write (open_stream (txt "1")) (txt " 2 3.4")) (txt " end").
Example stream_3 : vb_str (vs_buf iostr) = txt "1 2 3.4 end".
Proof. vm_compute. reflexivity. Qed.
Example stream_10 : let v := seekg iostr 7 in
  fst (StreamModel.run v [Get; Get; Unget; Get]) = [Some 32; Some 101; None; Some 101].
Proof. vm_compute. reflexivity. Qed.
Example stream_12 : map (fun p => fst (get (seekg iostr p))) [2; 0; 4] = [50; 49; 51].
Proof. vm_compute. reflexivity. Qed.

(** test-math.cpp and the tensors of test-var.cpp.  The numbers are tenths. *)
Definition tenth (z : Z) : str :=
  (if z <? 0 then [45] else []) ++ dec (Z.abs z / 10) ++ (if Z.abs z mod 10 =? 0 then [] else [46; 48 + Z.abs z mod 10]).
Definition up (a b : Z) : list Z := map Z.of_nat (seq (Z.to_nat a) (Z.to_nat (b - a))).
Definition ten (l : list Z) : list Z := map (Z.mul 10) l.
Definition mul10 (a b : Z) : Z := a * b / 10.
Definition print (r : outcome (GeoModel.mem Z * opd)) : outcome str := let* (m, o) := r in formatView Z tenth m o 0.
Definition in_view (m : GeoModel.mem Z) (o : opd) (sh : list Z) (off : Z) : outcome (GeoModel.mem Z * opd) :=
  let* v := mkview Z m o sh off in Ok (m, v).
Definition whole (a : nat) : opd := mkop a None.
Definition ts := [ten (up 0 16)].
Definition t16 := ["["; "  0, 1, 2, 3,"; "  4, 5, 6, 7,"; "  8, 9, 10, 11,"; "  12, 13, 14, 15"; "]"].
Example var_164 : print (in_view ts (whole 0) [4; 4] 0) = Ok (lines t16).
Proof. vm_compute. reflexivity. Qed.
Example var_170 : print (in_view ts (whole 0) [2; 2; 4] 0) =
  Ok (lines ["2x2x4 tensor:"; "["; "  0, 1, 2, 3,"; "  4, 5, 6, 7"; "]"; "["; "  8, 9, 10, 11,"; "  12, 13, 14, 15"; "]"]).
Proof. vm_compute. reflexivity. Qed.
Example var_179 : (let* v := mkview Z ts (whole 0) [4; 4] 0 in let* p := paren Z ts v [1; 2] in GeoModel.rd Z ts 0 p) = Ok 60 /\
  (let* v := mkview Z ts (whole 0) [2; 2; 4] 0 in let* p := paren Z ts v [1; 1; 2] in GeoModel.rd Z ts 0 p) = Ok 140.
Proof. vm_compute. auto. Qed.
Example var_181 : print (let* v := mkview Z ts (whole 0) [4; 4] 0 in let* p := paren Z ts v [1; 2] in
    let* m := GeoModel.wr Z ts 0 p 23 in Ok (m, v)) =
  Ok (lines ["["; "  0, 1, 2, 3,"; "  4, 5, 2.3, 7,"; "  8, 9, 10, 11,"; "  12, 13, 14, 15"; "]"]).
Proof. vm_compute. reflexivity. Qed.
(** [t1 += 1], [t1 += t1]. *)
Definition m1 := [ten [0; 1; 2; 3; 4; 5] ++ [23] ++ ten (up 7 16)].
Example math_5 : print (let* v := mkview Z m1 (whole 0) [4; 4] 0 in let* m := addsub_inplace Z Z.add m1 v (Scal Z 10) in Ok (m, v)) =
  Ok (lines ["["; "  1, 2, 3, 4,"; "  5, 6, 3.3, 8,"; "  9, 10, 11, 12,"; "  13, 14, 15, 16"; "]"]).
Proof. vm_compute. reflexivity. Qed.
(** 4.95 is no tenth: 4.9 is in its place. *)
Definition m3 := [List.concat [[15; 30; 45; 60]; [75; 90; 49; 120]; [135; 150; 165; 180]; [195; 210; 225; 240]]].
Example math_23 : print (let* v := mkview Z m3 (whole 0) [4; 4] 0 in let* m := addsub_inplace Z Z.add m3 v (Arr Z v) in Ok (m, v)) =
  Ok (lines ["["; "  3, 6, 9, 12,"; "  15, 18, 9.8, 24,"; "  27, 30, 33, 36,"; "  39, 42, 45, 48"; "]"]).
Proof. vm_compute. reflexivity. Qed.
(** [sv += 1], then [sv.offset(8); sv = rv], printing [r12]. *)
Definition r12 := [map (fun z => 10 * z + 1) (up 0 12); ten [-1; -2; -3; -4]].
Definition sv1 : outcome (GeoModel.mem Z * opd) :=
  let* sv := mkview Z r12 (whole 0) [4] 4 in let* m := addsub_inplace Z Z.add r12 sv (Scal Z 10) in Ok (m, sv).
Example math_35 : print sv1 = Ok (txt "[5.1, 6.1, 7.1, 8.1]") /\ print (in_view r12 (whole 0) [4] 4) = Ok (txt "[4.1, 5.1, 6.1, 7.1]").
Proof. vm_compute. auto. Qed.
Example math_40 : print (let* (m, _) := sv1 in Ok (m, whole 0)) = Ok (txt "[0.1, 1.1, 2.1, 3.1, 5.1, 6.1, 7.1, 8.1, 8.1, 9.1, 10.1, 11.1]").
Proof. vm_compute. reflexivity. Qed.
Definition sv2 : outcome (GeoModel.mem Z * opd) :=
  let* (m, sv) := sv1 in
  match o_ip sv with
  | None => Throw ""
  | Some ip => let* ip := set_offset 12 ip 8 in
               let sv := mkop 0 (Some ip) in
               let* m := set_inplace Z m sv (Arr Z (whole 1)) in Ok (m, sv)
  end.
Example math_42 : print (let* (m, _) := sv2 in Ok (m, whole 0)) = Ok (txt "[0.1, 1.1, 2.1, 3.1, 5.1, 6.1, 7.1, 8.1, -1, -2, -3, -4]").
Proof. vm_compute. reflexivity. Qed.
(** [r6 += r2], [r6 *= r2], [r6 * r6]. *)
Definition r6 := [ten (up 0 6); ten [1; 2]].
Definition r6a : outcome (GeoModel.mem Z * opd) :=
  let* v := mkview Z r6 (whole 0) [3; 2] 0 in let* m := addsub_inplace Z Z.add r6 v (Arr Z (whole 1)) in Ok (m, v).
Definition r6b : outcome (GeoModel.mem Z * opd) :=
  let* (m, v) := r6a in let* m := mul_broadcast Z mul10 m v (Arr Z (whole 1)) v in Ok (m, v).
Example math_49 : print r6a = Ok (lines ["["; "  1, 3,"; "  3, 5,"; "  5, 7"; "]"]).
Proof. vm_compute. reflexivity. Qed.
Example math_54 : print r6b = Ok (lines ["["; "  1, 6,"; "  3, 10,"; "  5, 14"; "]"]).
Proof. vm_compute. reflexivity. Qed.
Example math_59 : print (let* (m, v) := r6b in let (m, o) := alloc_like Z 0 m v in let* m := mul_broadcast Z mul10 m v (Arr Z v) o in Ok (m, o)) =
  Ok (lines ["["; "  1, 36,"; "  9, 100,"; "  25, 196"; "]"]).
Proof. vm_compute. reflexivity. Qed.
(** Views of views. *)
Example math_64 : print (let* (m, v) := r6b in in_view m v [2] 0) = Ok (txt "[1, 6]") /\
  print (let* (m, v) := sv2 in in_view m v [2] 0) = Ok (txt "[-1, -2]").
Proof. vm_compute. auto. Qed.
(** Transposition, both ways. *)
Definition tr6 := Ok (lines ["["; "  1, 3, 5,"; "  6, 10, 14"; "]"]).
Example math_77 : print (let* (m, v) := r6b in transpose_new Z 0 100 m v) = tr6 /\
  print (let* (m, v) := r6b in let* (m, _) := transpose_new Z 0 100 m v in Ok (m, v)) = print r6b.
Proof. vm_compute. auto. Qed.
Definition r23 := let* (m, v) := r6b in transpose_inplace Z 100 m v.
Example math_87 : print r23 = tr6.
Proof. vm_compute. reflexivity. Qed.
(** Products. *)
Example math_96 : print (let* (m, v) := r23 in dot_new Z 9 0 0 Z.add mul10 (m ++ [ten [2; 2; 2]]) v (Arr Z (whole 2))) =
  Ok (lines ["["; "  18,"; "  60"; "]"]).
Proof. vm_compute. reflexivity. Qed.
Example math_100 : print (let* (m, v) := r23 in let m := m ++ [ten [1; 2; 3; 4]] in
    let* mm := mkview Z m (whole 2) [2; 2] 0 in dot_new Z 9 0 0 Z.add mul10 m mm (Arr Z v)) =
  Ok (lines ["["; "  13, 23, 33,"; "  27, 49, 71"; "]"]).
Proof. vm_compute. reflexivity. Qed.
(** Concatenation. *)
Definition cm := [[0; 12; 14; 10; 12; 14; 20; 12; 14; 30; 12; 14]; [0; 22; 10; 22; 20; 22; 30; 22]; ten [4; 3; 2; 1]].
Definition vc : outcome (GeoModel.mem Z * opd) :=
  let* v1 := mkview Z cm (whole 0) [4; 3] 0 in let* v2 := mkview Z cm (whole 1) [4; 2] 0 in cat_new Z 0 cm [v1; v2].
Example math_vc : print vc =
  Ok (lines ["["; "  0, 1.2, 1.4, 0, 2.2,"; "  1, 1.2, 1.4, 1, 2.2,"; "  2, 1.2, 1.4, 2, 2.2,"; "  3, 1.2, 1.4, 3, 2.2"; "]"]).
Proof. vm_compute. reflexivity. Qed.
Example math_vc1 : print (let* (m, v) := vc in let* w := mkview Z m (whole 2) [4; 1] 0 in cat_new Z 0 m [v; w]) =
  Ok (lines ["["; "  0, 1.2, 1.4, 0, 2.2, 4,"; "  1, 1.2, 1.4, 1, 2.2, 3,"; "  2, 1.2, 1.4, 2, 2.2, 2,"; "  3, 1.2, 1.4, 3, 2.2, 1"; "]"]).
Proof. vm_compute. reflexivity. Qed.
(** Swap. *)
Example math_swap : swap_vars Z [ten [1; 2; 3; 4]; ten [5; 6; 7; 8]] (whole 0) (whole 1) = Ok [ten [5; 6; 7; 8]; ten [1; 2; 3; 4]].
Proof. vm_compute. reflexivity. Qed.
(** [lube::sum], [lube::asum]. *)
Example math_3 : print (sum_new Z 0 0 Z.add [[10; 12; 8; -20]] (whole 0)) = Ok (txt "[1]") /\
  print (asum_new Z 0 0 Z.add Z.abs [[10; 12; 8; -20]] (whole 0)) = Ok (txt "[5]").
Proof. vm_compute. auto. Qed.
