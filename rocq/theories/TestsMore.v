(** The remaining unit tests of the repository, run on the model (checks of the model, not proofs). *)
From Verif Require Import Parser Display Printer Project Cli Server Tests.

Definition nn (s : string) : node_name := mkNN (bs s) None.

(** ** lexer.rs:734-791 the comments are tokens of [consume] *)
Fixpoint consume_all (fuel : nat) (lx : lexer) : outcome (list token) :=
  match fuel with
  | O => NoFuel
  | S f => obind (lex_consume lx) (fun '(t, lx2) =>
      match t with None => Done [] | Some x => obind (consume_all f lx2) (fun l => Done (x :: l)) end)
  end.
Definition all_tokens (s : string) := consume_all 99 (lexer_new (reader_of (bs s)) src0).
Example tokenize_comment_tokens : all_tokens "something // &hshg chars
next_token" =
  Done [tok (Ident (bs "something")) 0 0 0 9; tok (Comment (bs " &hshg chars")) 0 10 0 24; tok (Ident (bs "next_token")) 1 0 1 10].
Proof. vm_compute. reflexivity. Qed.
Example tokenize_multiline_comment : all_tokens "token /* some comment */ token" =
  Done [tok (Ident (bs "token")) 0 0 0 5; tok (Comment (bs " some comment ")) 0 6 0 24; tok (Ident (bs "token")) 0 25 0 30].
Proof. vm_compute. reflexivity. Qed.

(** ** parser.rs:988-1036 *)
Example simple_file : summary (parse "/ {};") =
  Some (mkFile [PRoot (mkNode None (mkWT (mkNN (bs "/") None) (tok Slash 0 0 0 1)) (mkPayload [] (tok Semicolon 0 4 0 5)) None)] src0, []).
Proof. vm_compute. reflexivity. Qed.
Example file_with_dts_header : summary (parse "/dts-v1/;

/{};") =
  Some (mkFile [PDirective (ADtsHeader (tok (Directive DTSVersionHeader) 0 0 0 8));
    PRoot (mkNode None (mkWT (mkNN (bs "/") None) (tok Slash 2 0 2 1)) (mkPayload [] (tok Semicolon 2 3 2 4)) None)] src0, []).
Proof. vm_compute. reflexivity. Qed.

(** ** import_guard.rs:112-234 *)
Definition add_all (l : list (N * list N)) : outcome (list (option (list N))) :=
  (fix go (l : list (N * list N)) (g : guard N) : outcome (list (option (list N))) :=
     match l with
     | [] => Done []
     | (e, ds) :: r => obind (guard_add N.eq_dec (fun _ s => s) e ds g) (fun '(x, g') => obind (go r g') (fun xs => Done (x :: xs)))
     end) l guard_empty.
Example ok_for_files_without_dependencies : add_all [(1, []); (2, [])] = Done [None; None].
Proof. vm_compute. reflexivity. Qed.
Example ok_for_unrelated_files : add_all [(1, [2]); (3, [4])] = Done [None; None].
Proof. vm_compute. reflexivity. Qed.
Example ok_for_files_with_non_cyclic_dependencies : add_all [(1, [2]); (2, [3]); (3, [])] = Done [None; None; None].
Proof. vm_compute. reflexivity. Qed.
Example ok_dependencies_for_multiple_includes : add_all [(1, []); (2, []); (3, [1; 2])] = Done [None; None; None].
Proof. vm_compute. reflexivity. Qed.
Example ok_for_dependency_in_multiple_files : add_all [(1, []); (2, [1]); (3, [1])] = Done [None; None; None].
Proof. vm_compute. reflexivity. Qed.
Example simple_cyclic_dependency : add_all [(1, [2]); (2, [1])] = Done [None; Some [2; 1; 2]].
Proof. vm_compute. reflexivity. Qed.
Example cyclic_dependency_spanning_multiple_files : add_all [(1, [2]); (2, [3]); (3, [1])] = Done [None; None; Some [3; 1; 2; 3]].
Proof. vm_compute. reflexivity. Qed.
Example cyclic_dependency_is_independent_of_order : add_all [(3, [2]); (1, [2]); (2, [3])] = Done [None; None; Some [2; 3; 2]]
  /\ add_all [(1, [2]); (3, [2]); (2, [3])] = Done [None; None; Some [2; 3; 2]].
Proof. vm_compute. split; reflexivity. Qed.
Example complex_cyclic_dependency_graph : add_all [(1, [2; 3]); (2, [4]); (4, []); (3, [4])] = Done [None; None; None; None].
Proof. vm_compute. reflexivity. Qed.
Example self_import : add_all [(1, [1])] = Done [Some [1; 1]].
Proof. vm_compute. reflexivity. Qed.
Example double_edges : add_all [(1, [2]); (1, [2])] = Done [None; None].
Proof. vm_compute. reflexivity. Qed.

(** ** project.rs:336-609 *)
Fixpoint add_files (fs : fsys) (ps : list fpath) (pj : project) : outcome (str + project) :=
  match ps with
  | [] => Done (inr pj)
  | p :: r => obind (add_file 10 id_oracle fs p pj) (fun x => match x with inl e => Done (inl e) | inr pj' => add_files fs r pj' end)
  end.
Definition on_project {A} (o : outcome (str + project)) (f : project -> A) : option A := match o with Done (inr pj) => Some (f pj) | _ => None end.
Definition some {A} (x : option A) : bool := match x with Some _ => true | None => false end.
Definition fs_includes : fsys := mem_fs [(bs "/d/tests-include.dtsi", bs ""); (bs "/d/tests-file.dts", bs "
/dts-v1/;

/include/ ""/d/tests-include.dtsi""
")].
Example file_with_includes : on_project (add_files fs_includes [bs "/d/tests-include.dtsi"; bs "/d/tests-file.dts"] project_new) (fun pj =>
  let a := bs "/d/tests-include.dtsi" in let b := bs "/d/tests-file.dts" in
  (some (get_file fs_includes pj a), some (get_file fs_includes pj b), get_diagnostics fs_includes pj a, get_diagnostics fs_includes pj b,
   some (get_root fs_includes pj a), some (get_analysis fs_includes pj a), some (get_analysis fs_includes pj b)))
  = Some (true, true, [], [], true, true, true).
Proof. vm_compute. reflexivity. Qed.
Definition fs_cross : fsys := mem_fs [(bs "/d/tests-include.dtsi", bs "
/ {
    some_node: node_a {
        // ...
    };
};
"); (bs "/d/tests-file.dts", bs "
/dts-v1/;

/include/ ""/d/tests-include.dtsi""

&some_node {
};

&{/node_a} {
};
")].
Definition at_cursor (pj : project) (l c : N) : option (reference * option (span * fpath)) :=
  match find_at_pos fs_cross pj (bs "/d/tests-file.dts") (mkPos l c) with
  | Some (AtReference r) => Some (r, get_node_position fs_cross pj (bs "/d/tests-file.dts") r)
  | _ => None
  end.
Example cross_file_references_found : on_project (add_files fs_cross [bs "/d/tests-file.dts"] project_new) (fun pj =>
  (concat (map (fun kv => pf_diags (snd kv)) (pj_files pj)), at_cursor pj 5 0, at_cursor pj 8 0))
  = Some ([], Some (RefLabel (bs "some_node"), Some (sp 2 15 2 21, bs "/d/tests-include.dtsi")),
          Some (RefPath [nn "node_a"], Some (sp 2 15 2 21, bs "/d/tests-include.dtsi"))).
Proof. vm_compute. reflexivity. Qed.
Definition fs_multiple : fsys := mem_fs [(bs "/test1.dtsi", bs ""); (bs "/test2.dtsi", bs ""); (bs "/test.dts", bs "
/dts-v1/;

/include/ ""/test1.dtsi""
/include/ ""/test2.dtsi""
")].
Example file_with_multiple_includes :
  proj_diags (add_files fs_multiple [bs "/test1.dtsi"; bs "/test2.dtsi"; bs "/test.dts"] project_new) = Some [].
Proof. vm_compute. reflexivity. Qed.
Definition fs_nested : fsys := mem_fs [(bs "/tests-include1.dtsi", bs ""); (bs "/tests-include2.dtsi", bs "/include/ ""/tests-include1.dtsi"""); (bs "/test.dts", bs "
/dts-v1/;

/include/ ""/tests-include2.dtsi""
")].
Example file_with_nested_includes : proj_diags (add_files fs_nested [bs "/test.dts"] project_new) = Some []
  /\ on_project (add_files fs_nested [bs "/test.dts"] project_new) (fun pj =>
       map (fun p => some (get_file fs_nested pj p)) [bs "/tests-include1.dtsi"; bs "/tests-include2.dtsi"; bs "/test.dts"]) = Some [true; true; true].
Proof. vm_compute. split; reflexivity. Qed.
Definition fs_error : fsys := mem_fs [(bs "/error.dtsi", bs "/ {}"); (bs "/test.dts", bs "
/dts-v1/;

/include/ ""/error.dtsi""
")].
Example error_in_included_file_add_include_before_dts : on_project (add_files fs_error [bs "/test.dts"] project_new) (fun pj =>
  (get_diagnostics fs_error pj (bs "/error.dtsi"), get_diagnostics fs_error pj (bs "/test.dts")))
  = Some ([diag_expected (sp 0 4 0 4) (bs "/error.dtsi") [Semicolon]],
          [mkDiag ErrorsInInclude (sp 3 0 3 23) (bs "/test.dts") (bs "Included file contains errors")]).
Proof. vm_compute. reflexivity. Qed.
Definition fs_dirs : fsys := mem_fs [(bs "/i1", [255]); (bs "/i2", [255]); (bs "/i1/tests-include1.dtsi", bs ""); (bs "/i2/tests-include2.dtsi", bs ""); (bs "/d/test.dts", bs "
/dts-v1/;

/include/ ""tests-include1.dtsi""
/include/ ""tests-include2.dtsi""
")].
Example file_with_include_paths_includes :
  let o := add_files fs_dirs [bs "/d/test.dts"] (set_include_paths fs_dirs [bs "/i1"; bs "/i2"] project_new) in
  proj_diags o = Some [] /\ on_project o (fun pj =>
    map (fun p => some (get_file fs_dirs pj p)) [bs "/i1/tests-include1.dtsi"; bs "/i2/tests-include2.dtsi"; bs "/d/test.dts"]) = Some [true; true; true].
Proof. vm_compute. split; reflexivity. Qed.

(** ** analysis.rs:500-547 *)
Definition text_paths : string := "/dts-v1/;

/{
    node1: some_node {
        ref-to-node2 = &node2;
    };
    node2: some_other_node {
        ref-to-node1 = &node1;
        node4: some_node {
            self-reference = &node4;
        };
    };
};".
Definition name_at (c : actx) (p : npath) : option span := option_map (fun n => tk_span (wt_tok (nd_name n))) (get_node_by_path c p).
Example resolve_node_paths : proj_diags (one text_paths) = Some []
  /\ on_project (one text_paths) (fun pj => option_map (fun c => (name_at c [nn "some_node"], name_at c [nn "some_other_node"], name_at c [nn "some_other_node"; nn "some_node"], some (get_node_by_label c (bs "node3"))))
       (get_analysis (mem_fs [(bs "/a.dts", bs text_paths)]) pj (bs "/a.dts")))
     = Some (Some (Some (sp 3 11 3 20), Some (sp 6 11 6 26), Some (sp 8 15 8 24), false)).
Proof. vm_compute. split; reflexivity. Qed.

(** ** tests/integration_tests.rs with tests/*.dts *)
Definition fs_tests : fsys := mem_fs [(bs "/tests/simple.dts", bs "/dts-v1/;

/ {
    node1 {
        a-string-property = ""A string"";
        a-string-list-property = ""first string"", ""second string"";
        // hex is implied in byte arrays. no '0x' prefix is required
        a-byte-data-property = [01 23 34 56];
        child-node1 {
            first-child-property;
            second-child-property = <1>;
            a-string-property = ""Hello, world"";
        };
        child-node2 {
        };
    };
    node2 {
        an-empty-property;
        a-cell-property = <1 2 3 4>; /* each number (cell) is a uint32 */
        child-node1 {
        };
    };
};");
(bs "/tests/test_delete_syntax_A.dts", bs "/dts-v1/;

/ {

	node-1@1 {
		node-1-pa = ""abc"";
	};

	node-2@2 {
		node-2-pa = ""def"";
	};


	node-3@3 {
		node-3-pa = ""ghi"";
		node-3-pb = ""jkl"";
	};

	node-4@4 {
		node-4-pa = ""mno"";
	};

	node_5_label: node-5@5 {
		node-5-pa = ""pqr"";
	};

};

/ {

	node-2@2 {
		/delete-property/ node-2-pa;
	};

	node-3@3 {
		/delete-property/ node-3-pa;
	};

	/delete-node/ node-4@4;

};

/delete-node/ &node_5_label;
");
(bs "/tests/test_delete_syntax_B.dts", bs "/dts-v1/;

/ {

	node-1@1 {
		node-1-pa = ""abc"";
	};

	node-2@2 {
		node-2-pa = ""def"";
	};


	node-3@3 {
		node-3-pa = ""ghi"";
		node-3-pb = ""jkl"";
	};

	node-4@4 {
		node-4-pa = ""mno"";
	};

	node_5_label: node-5@5 {
		node-5-pa = ""pqr"";
	};

};

/ {

	node-2@2 {
		/delete-property/ node-2-pa;
	};

	node-3@3 {
		/delete-property/ node-3-pa;
	};

	/delete-node/ node-4@4;

};

/delete-node/ &node_5_label;

/ {

	node-4@4 {
		node-4-pc = ""stu"";
		node-4-pd = ""vwx"";
	};

};")].
Example no_diagnostics_for_simple_file : proj_diags (add_files fs_tests [bs "/tests/simple.dts"] project_new) = Some [].
Proof. vm_compute. reflexivity. Qed.
Example no_diagnostics_for_file_with_delete_node :
  proj_diags (add_files fs_tests [bs "/tests/test_delete_syntax_A.dts"; bs "/tests/test_delete_syntax_B.dts"] project_new) = Some [].
Proof. vm_compute. reflexivity. Qed.

(** ** parser.rs:1086-1438 with the whole trees *)
Definition root_at (l c : N) (items : list item) (l' c' : N) : primary :=
  PRoot (mkNode None (mkWT (mkNN (bs "/") None) (tok Slash l c l (c + 1))) (mkPayload items (tok Semicolon l' c' l' (c' + 1))) None).
Definition header_at (l c : N) : primary := PDirective (ADtsHeader (tok (Directive DTSVersionHeader) l c l (c + 8))).
Example file_with_node_tree : summary (parse "    /dts-v1/;

    / {
        pic@10000000 {
            phandle = <1>;
            interrupt-controller;
            reg = <0x10000000 0x100>;
        };
    };") = Some (mkFile [header_at 0 4; root_at 2 4 [INode (mkNode None (mkWT (mkNN (bs "pic") (Some (bs "10000000"))) (tok (Ident (bs "pic@10000000")) 3 8 3 20))
      (mkPayload [
        IProperty (mkProp None (mkWT (bs "phandle") (tok (Ident (bs "phandle")) 4 12 4 19))
          [PVCells (tok ChevronLeft 4 22 4 23) [CNumber (mkWT 1 (tok (UnparsedNumber (bs "1")) 4 23 4 24))] (tok ChevronRight 4 24 4 25)] (tok Semicolon 4 25 4 26));
        IProperty (mkProp None (mkWT (bs "interrupt-controller") (tok (Ident (bs "interrupt-controller")) 5 12 5 32)) [] (tok Semicolon 5 32 5 33));
        IProperty (mkProp None (mkWT (bs "reg") (tok (Ident (bs "reg")) 6 12 6 15))
          [PVCells (tok ChevronLeft 6 18 6 19) [CNumber (mkWT 268435456 (tok (UnparsedNumber (bs "0x10000000")) 6 19 6 29)); CNumber (mkWT 256 (tok (UnparsedNumber (bs "0x100")) 6 30 6 35))]
            (tok ChevronRight 6 35 6 36)] (tok Semicolon 6 36 6 37))] (tok Semicolon 7 9 7 10)) None)] 8 5] src0, []).
Proof. vm_compute. reflexivity. Qed.
Example parses_memreserve_tree : summary (parse "    /dts-v1/;
    /memreserve/ 0x10000000 0x4000;

    / {};
    ") = Some (mkFile [header_at 0 4;
    PDirective (AMemreserve (mkWT 268435456 (tok (UnparsedNumber (bs "0x10000000")) 1 17 1 27)) (mkWT 16384 (tok (UnparsedNumber (bs "0x4000")) 1 28 1 34)));
    root_at 3 4 [] 3 8] src0, []).
Proof. vm_compute. reflexivity. Qed.
Example delete_property_syntax_tree : summary (run p_primary "
/ {
    node-2 {
        /delete-property/ node-2-pa;
    };
};
        ") = Some (root_at 1 0 [INode (mkNode None (mkWT (mkNN (bs "node-2") None) (tok (Ident (bs "node-2")) 2 4 2 10))
    (mkPayload [IDeletedProperty (tok (Directive DeleteProperty) 3 8 3 25) (mkWT (bs "node-2-pa") (tok (Ident (bs "node-2-pa")) 3 26 3 35))] (tok Semicolon 4 5 4 6)) None)] 5 1, []).
Proof. vm_compute. reflexivity. Qed.
Example delete_node_primary_tree : summary (parse "
/dts-v1/;

/delete-node/ &some_node;
/delete-node/ &{/path/to/node};
        ") = Some (mkFile [header_at 1 0;
    PDirective (ADeletedNode (tok (Directive DeleteNode) 3 0 3 13) (mkWT (RefLabel (bs "some_node")) (tok (Ref (TRefSimple (bs "some_node"))) 3 14 3 24)));
    PDirective (ADeletedNode (tok (Directive DeleteNode) 4 0 4 13) (mkWT (RefPath [nn "path"; nn "to"; nn "node"]) (tok (Ref (TRefPath (bs "/path/to/node"))) 4 14 4 30)))] src0, []).
Proof. vm_compute. reflexivity. Qed.
Example omit_if_no_ref_tree : summary (parse "
/dts-v1/;

/ {
    /omit-if-no-ref/ node1_lbl: node1 {};
};
        ") = Some (mkFile [header_at 1 0; root_at 3 0 [INode (mkNode (Some (mkWT (bs "node1_lbl") (tok (Label (bs "node1_lbl")) 4 21 4 31)))
    (mkWT (nn "node1") (tok (Ident (bs "node1")) 4 32 4 37)) (mkPayload [] (tok Semicolon 4 40 4 41)) (Some (tok (Directive OmitIfNoRef) 4 4 4 20)))] 5 1] src0, [])
  /\ summary (parse "
/dts-v1/;

/omit-if-no-ref/ &node2;
        ") = Some (mkFile [header_at 1 0; PDirective (AOmitIfNoRef (tok (Directive OmitIfNoRef) 3 0 3 16) (mkWT (RefLabel (bs "node2")) (tok (Ref (TRefSimple (bs "node2"))) 3 17 3 23)))] src0, []).
Proof. vm_compute. split; reflexivity. Qed.
