(** The unit tests of the repository, run on the model (checks of the model, not proofs). *)
From Verif Require Import Parser Display Printer Project Cli Server.

Definition src0 : fpath := bs "inline source".
Definition kinds (o : outcome (list token)) : outcome (list token_kind) :=
  obind o (fun l => Done (map tk_kind l)).
Definition toks (s : string) := tokenize (bs s) src0.
Definition tok (k : token_kind) (l1 c1 l2 c2 : N) : token :=
  mkToken k (mkSpan (mkPos l1 c1) (mkPos l2 c2)) src0.

(** lexer.rs tests *)
Example tokenize_simple_characters :
  toks "; = [] ><" =
  Done [tok Semicolon 0 0 0 1; tok Equal 0 2 0 3; tok OpenBracket 0 4 0 5;
        tok CloseBracket 0 5 0 6; tok ChevronRight 0 7 0 8; tok ChevronLeft 0 8 0 9].
Proof. vm_compute. reflexivity. Qed.
Example tokenize_reference1 : toks "&ref" = Done [tok (Ref (TRefSimple (bs "ref"))) 0 0 0 4].
Proof. vm_compute. reflexivity. Qed.
Example tokenize_reference2 :
  toks "&ref0_from_4" = Done [tok (Ref (TRefSimple (bs "ref0_from_4"))) 0 0 0 12].
Proof. vm_compute. reflexivity. Qed.
Example tokenize_node_name :
  toks "node@addr@" = Done [tok (Ident (bs "node@addr")) 0 0 0 9; tok (Unknown cAt) 0 9 0 10].
Proof. vm_compute. reflexivity. Qed.
Example error_on_wrong_reference :
  toks "&0ref" = Done [tok (Ref (TRefSimple [])) 0 0 0 1; tok (UnparsedNumber (bs "0ref")) 0 1 0 5].
Proof. vm_compute. reflexivity. Qed.
Example error_on_wrong_reference2 :
  toks "& ref" = Done [tok (Ref (TRefSimple [])) 0 0 0 1; tok (Ident (bs "ref")) 0 2 0 5].
Proof. vm_compute. reflexivity. Qed.
Example tokenize_path_reference :
  toks "&{}&{ref}&{/path/to/node}" =
  Done [tok (Ref (TRefPath [])) 0 0 0 3; tok (Ref (TRefPath (bs "ref"))) 0 3 0 9;
        tok (Ref (TRefPath (bs "/path/to/node"))) 0 9 0 25].
Proof. vm_compute. reflexivity. Qed.
Example tokenize_property_name :
  toks "fsbl,my_node#s" = Done [tok (Ident (bs "fsbl,my_node#s")) 0 0 0 14].
Proof. vm_compute. reflexivity. Qed.
Example tokenize_labels :
  toks "my_label#:" = Done [tok (Label (bs "my_label#")) 0 0 0 10].
Proof. vm_compute. reflexivity. Qed.
Example tokenize_comment :
  toks "something // &hshg chars
next_token /* first
second **/ x" =
  Done [tok (Ident (bs "something")) 0 0 0 9; tok (Ident (bs "next_token")) 1 0 1 10;
        tok (Ident (bs "x")) 2 11 2 12].
Proof. vm_compute. reflexivity. Qed.
Example compiler_directive1 :
  toks "/dts-v1/" = Done [tok (Directive DTSVersionHeader) 0 0 0 8].
Proof. vm_compute. reflexivity. Qed.
Example compiler_directive2 :
  toks "/undefined/" = Done [tok (Directive (DirOther (bs "undefined"))) 0 0 0 11].
Proof. vm_compute. reflexivity. Qed.
Example strings_test :
  kinds (toks """"" ""ns16550"" ""foo \""bar\"""" ""foo \\bar""") =
  Done [TString []; TString (bs "ns16550"); TString (bs "foo ""bar"""); TString (bs "foo \bar")].
Proof. vm_compute. reflexivity. Qed.
Example conflicting_node_names :
  kinds (toks "some_node { ,property-name = <1>,<2>; };") =
  Done [Ident (bs "some_node"); OpenBrace; Ident (bs ",property-name"); Equal; ChevronLeft;
        UnparsedNumber (bs "1"); ChevronRight; Comma; ChevronLeft; UnparsedNumber (bs "2");
        ChevronRight; Semicolon; CloseBrace; Semicolon].
Proof. vm_compute. reflexivity. Qed.

(** parser.rs tests *)
Definition parse (s : string) := parse_text [] (bs s) src0.
Definition run {A} (m : nat -> M A) (s : string) : res A := m 1000%nat (parser_new [] (bs s) src0).
Definition summary {A} (r : res A) : option (A * list diag) :=
  match r with ROk a s => Some (a, ps_diags s) | _ => None end.
Definition clean {A} (r : res A) : bool :=
  match r with ROk _ s => match ps_diags s with [] => true | _ => false end | _ => false end.
Definition diags {A} (r : res A) : list diag :=
  match r with ROk _ s => ps_diags s | RErr d s => ps_diags s ++ [d] | _ => [] end.

Example string_properties :
  summary (run property_value """bar""") =
  Some (PVString (mkWT (bs "bar") (tok (TString (bs "bar")) 0 0 0 5)), []).
Proof. vm_compute. reflexivity. Qed.
Example error_tolerant_parsing :
  diags (parse "/dts-v1/

/ {
    some_prop = <5>
}") =
  [diag_expected (as_char_span (mkPos 0 8)) src0 [Semicolon];
   diag_expected (as_char_span (mkPos 3 19)) src0 [Semicolon];
   diag_expected (as_span (mkPos 4 1)) src0 [Semicolon]].
Proof. vm_compute. reflexivity. Qed.
Example cell_properties :
  summary (run property_value "<17 0xC &label>") =
  Some (PVCells (tok ChevronLeft 0 0 0 1)
          [CNumber (mkWT 17 (tok (UnparsedNumber (bs "17")) 0 1 0 3));
           CNumber (mkWT 12 (tok (UnparsedNumber (bs "0xC")) 0 4 0 7));
           CReference (mkWT (RefLabel (bs "label")) (tok (Ref (TRefSimple (bs "label"))) 0 8 0 14))]
          (tok ChevronRight 0 14 0 15), []).
Proof. vm_compute. reflexivity. Qed.
Example reference_properties :
  summary (run property_value "&{/path/to/somewhere@2000}") =
  Some (PVReference (mkWT (RefPath [mkNN (bs "path") None; mkNN (bs "to") None;
                                    mkNN (bs "somewhere") (Some (bs "2000"))])
                       (tok (Ref (TRefPath (bs "/path/to/somewhere@2000"))) 0 0 0 26)), []).
Proof. vm_compute. reflexivity. Qed.
Example byte_strings1 :
  match run property_value "[000012345678 AB cd]" with
  | ROk (PVBytes _ l _) s => (map wt_item l, ps_diags s)
  | _ => ([], [])
  end = ([[0; 0; 18; 52; 86; 120]; [171]; [205]], []).
Proof. vm_compute. reflexivity. Qed.
Example file_with_single_simple_sub_node :
  summary (parse "/dts-v1/;

/{
    my_node: sub_node@200 {
        // my sub node
    };
};") =
  Some (mkFile
    [PDirective (ADtsHeader (tok (Directive DTSVersionHeader) 0 0 0 8));
     PRoot (mkNode None (mkWT (mkNN (bs "/") None) (tok Slash 2 0 2 1))
       (mkPayload
          [INode (mkNode (Some (mkWT (bs "my_node") (tok (Label (bs "my_node")) 3 4 3 12)))
             (mkWT (mkNN (bs "sub_node") (Some (bs "200")))
                (tok (Ident (bs "sub_node@200")) 3 13 3 25))
             (mkPayload [] (tok Semicolon 5 5 5 6)) None)]
          (tok Semicolon 6 1 6 2)) None)] src0, []).
Proof. vm_compute. reflexivity. Qed.
Example file_with_node :
  clean (parse "
    /dts-v1/;

    / {
        pic@10000000 {
            phandle = <1>;
            interrupt-controller;
            reg = <0x10000000 0x100>;
        };
    };") = true.
Proof. vm_compute. reflexivity. Qed.
Example properties_must_be_placed_before_nodes :
  diags (parse "    /dts-v1/;

    / {
        f {
             foo;
             g {
             };
             bar;
        };
        some_prop = <0x1>;
    };") =
  [diag_new (mkSpan (mkPos 7 13) (mkPos 7 17)) src0 PropertyAfterNode
     (bs "Properties must be placed before nodes");
   diag_new (mkSpan (mkPos 9 8) (mkPos 9 26)) src0 PropertyAfterNode
     (bs "Properties must be placed before nodes")].
Proof. vm_compute. reflexivity. Qed.
Example parses_memreserve :
  match parse "/dts-v1/; /memreserve/ 0x10000000 0x4000; / {};" with
  | ROk (mkFile [_; PDirective (AMemreserve a l); _] _) s => (wt_item a, wt_item l, ps_diags s)
  | _ => (0, 0, [])
  end = (268435456, 16384, []).
Proof. vm_compute. reflexivity. Qed.
Example labels_test :
  clean (parse "
    /dts-v1/;
    /memreserve/ 0x10000000 0x4000;

    / {
        reg = reglabel: <0 sizelabel: 0x1000000>;
        prop = [ab cd ef byte4: 00 ff fe];
        str = start: ""string value"" end: ;
    };
    ") = true.
Proof. vm_compute. reflexivity. Qed.
Example expressions_test :
  clean (parse "/dts-v1/; / { some_prop = <(1 + 1) (2 || (3 - 4)) ()>; };") = true.
Proof. vm_compute. reflexivity. Qed.
Example c_style_includes :
  clean (parse "/dts-v1/;
    #include ""some_header""

    / {};") = true.
Proof. vm_compute. reflexivity. Qed.
Example error_position :
  match parse "    /dts-v1/;

    / {
        prop_a
        prop_b;
    };
    " with RErr d _ => Some d | _ => None end =
  Some (diag_expected (as_span (mkPos 3 14)) src0
          [Semicolon; Equal; OpenBrace; Directive OmitIfNoRef]).
Proof. vm_compute. reflexivity. Qed.
Example eof_error_position :
  diags (parse "
        /dts-v1/;

        / {
        }

        ") = [diag_expected (as_span (mkPos 4 9)) src0 [Semicolon]].
Proof. vm_compute. reflexivity. Qed.
Example delete_property_syntax :
  clean (parse "/ { node-2 { /delete-property/ node-2-pa; /delete-node/ x; }; };") = true.
Proof. vm_compute. reflexivity. Qed.
Example delete_node_primary :
  clean (parse "/dts-v1/; /delete-node/ &some_node; /delete-node/ &{/path/to/node};") = true.
Proof. vm_compute. reflexivity. Qed.
Example omit_if_no_ref_property :
  clean (parse "/dts-v1/; / { /omit-if-no-ref/ node1_lbl: node1 {}; }; /omit-if-no-ref/ &node2;")
  = true.
Proof. vm_compute. reflexivity. Qed.

(** diagnostics.rs tests *)
Example display_missing_semicolon :
  match parse_text [] (bs "/ {}") (bs "fname") with
  | ROk _ s => fmt_diagnostics true [bs "/ {}"] default_severities (ps_diags s)
  | _ => Panic
  end = Done (bs "error --> fname:1:5
  |
1 | / {}
  |     ^ Expected ';'

").
Proof. vm_compute. reflexivity. Qed.
Definition warning_code := bs "        /dts-v1/;

        / {
            very-long-company,very-long-name;
        };".
Example display_warning_message :
  match parse_text [] warning_code (bs "fname") with
  | ROk _ s => fmt_diagnostics true (lines warning_code) default_severities (ps_diags s)
  | _ => Panic
  end = Done (bs "warning --> fname:4:13
  |
4 |             very-long-company,very-long-name;
  |             ^^^^^^^^^^^^^^^^^^^^^^^^^^^^^^^^ property should only have 31 characters but has 32 characters

").
Proof. vm_compute. reflexivity. Qed.

(** analysis.rs and project.rs tests, on a file system given by a list of files *)
Definition mem_fs (l : list (fpath * str)) : fsys :=
  mkFs (fun p => if m_mem str_eq_dec p l then inl p else inr (bs "not found"))
       (fun p => match m_get str_eq_dec p l with Some t => inl t | None => inr (bs "not found") end).
Definition id_oracle : oracle :=
  mkPOracle (fun l => l) (fun l => l) (mkOracle (fun _ _ l => l) (fun _ l => l)).
Definition add1 (l : list (fpath * str)) (p : fpath) : outcome (str + project) :=
  add_file 10 id_oracle (mem_fs l) p project_new.
Definition proj_diags (o : outcome (str + project)) : option (list (error_code * span)) :=
  match o with
  | Done (inr pj) =>
    Some (concat (map (fun kv => map (fun d => (dg_kind d, dg_span d)) (pf_diags (snd kv)))
                    (pj_files pj)))
  | _ => None
  end.
Definition one (s : string) := add1 [(bs "/a.dts", bs s)] (bs "/a.dts").
Definition sp (l c l' c' : N) : span := mkSpan (mkPos l c) (mkPos l' c').

Example illegal_char_in_label :
  proj_diags (one "/dts-v1/;

/{
    my_l?abel: some_node {};
    my_label_that_has_more_than_31_characters: other_node {};
    some_other_node {
        another_ill#gal_label: sub_node {};
    };
    illegal_node_name#s {};
};") =
  Some [(IllegalChar, sp 3 8 3 9); (NameTooLong, sp 4 4 4 46); (IllegalChar, sp 6 19 6 20);
        (IllegalChar, sp 8 21 8 22)].
Proof. vm_compute. reflexivity. Qed.
Example resolve_node_names :
  proj_diags (one "/dts-v1/;

/{
    node1: some_node {
        ref-to-node2 = &node2;
        ref-to-node3 = <&node3>;
    };
    node2: some_other_node {
        ref-to-node1 = &node1;
        ref-to-node1-path = &{/some_node};
        ref-to-node4-path = &{/some_other_node/some_node};
        ref-to-node3-path = &{/node3};
        node4: some_node {
            self-reference = &node4;
        };
    };
};") = Some [(UnresolvedReference, sp 5 24 5 30); (UnresolvedReference, sp 11 28 11 37)].
Proof. vm_compute. reflexivity. Qed.
Example non_dtsv1 : proj_diags (one "/ {};") = Some [(NonDtsV1, sp 0 0 0 0)].
Proof. vm_compute. reflexivity. Qed.
Example referenced_node_in_same_file :
  proj_diags (one "/dts-v1/;
/ {
    some_node: node {};
};
&some_node {};
&some_other_node {};
&{/node} {};
&{/some_other_node} {};
") = Some [(UnresolvedReference, sp 5 0 5 16); (UnresolvedReference, sp 7 0 7 19)].
Proof. vm_compute. reflexivity. Qed.
Example cross_file_references :
  proj_diags (add1 [(bs "/d/i.dtsi", bs "
/ {
    some_node: node_a {
        // ...
    };
};
"); (bs "/d/a.dts", bs "/dts-v1/;
/include/ ""i.dtsi""
&some_node { };
&{/node_a} { };")] (bs "/d/a.dts")) = Some [].
Proof. vm_compute. reflexivity. Qed.
Example cyclic_import_error :
  option_map (map fst)
    (proj_diags (add1 [(bs "/i.dtsi", bs "/include/ ""/a.dts""");
                       (bs "/a.dts", bs "/dts-v1/; /include/ ""/i.dtsi""")] (bs "/a.dts")))
  = Some [CyclicDependencyError].
Proof. vm_compute. reflexivity. Qed.
Example error_in_included_file :
  proj_diags (add1 [(bs "/error.dtsi", bs "/ {}");
                    (bs "/test.dts", bs "
/dts-v1/;

/include/ ""/error.dtsi""
")] (bs "/test.dts"))
  = Some [(ErrorsInInclude, sp 3 0 3 23); (Expected, sp 0 4 0 4)].
Proof. vm_compute. reflexivity. Qed.
