(** * The tests of the repository, on the model

    These are tests, not proofs: they check that the model with the parser of Parser.v
    does what the tests of the repository say that the code does.  Readme.v converts the
    README.  (Generated from the test sources; [cargo] was not run.) *)

From Verif Require Import Base Doc Config Ast Errors Convert Grammar SpecSource SpecErrors Parser Reporter Path Cli Wasm.
From Coq Require Import ZArith.
Open Scope N_scope.

(** The characters of the tests are ASCII; no test looks into a parse error. *)
Definition t_failure : str -> parse_error := fun src => mkPE (blen src) [] [].
Definition t_parse : str -> a_content + parse_error := parser is_ascii_alnum t_failure.

Definition t_xml (c : config) := mkConfig (c_indent c) (Some true) (c_special c) (c_complete_page c) (c_lang c) (c_metadata c) (c_fail_fast c).
Definition t_indent (c : config) := mkConfig (Some (L "  ")) (c_xml c) (c_special c) (c_complete_page c) (c_lang c) (c_metadata c) (c_fail_fast c).
Definition t_page (c : config) := mkConfig (c_indent c) (c_xml c) (c_special c) (Some true) (c_lang c) (c_metadata c) (c_fail_fast c).

(** tests/utils.rs: [convert_unwrap] and [convert_fail] try both functions. *)
Definition t_ok (cfg : config) (src out : str) : Prop :=
  (convert t_parse source_slice src cfg, convert_forgiving t_parse source_slice src cfg) = (Some (inl out), Some (inl out)).
Definition t_fails (cfg : config) (src : str) (l : list syntax_error) (out : str) : Prop :=
  (match convert t_parse source_slice src cfg with Some (inl _) | None => false | Some (inr _) => true end,
   convert_forgiving t_parse source_slice src cfg) = (true, Some (inr (Some out, CESyntax l))).
Ltac t_run := vm_compute; reflexivity.

(** ** mintyml/tests *)
(** tests/convert.rs:20 *)
Example test_convert_simple_doc : t_ok config_default (L "
    {
        foo bar
        baz
        img[src=""./pic.png""]>

        > <(a.foo[href=www.example.com]> a )>
        b
        .foo>
        .foo#bar.baz> c
    }
")
  (L "<div><p>foo bar baz</p> <img src=""./pic.png""> <p><a class=""foo"" href=""www.example.com"">a</a> b</p> <p class=""foo""></p> <p id=""bar"" class=""foo baz"">c</p></div>").
Proof. t_run. Qed.
(** tests/convert.rs:38 *)
Example test_convert_simple_doc_xml : t_ok (t_xml config_default) (L "
    {
        foo bar
        baz
        img[src=""./pic.png""]>

        > <(a.foo[href=www.example.com]> a )>
        b
        .foo>
        .foo#bar.baz> c
    }
")
  (L "<div><p>foo bar baz</p> <img src=""./pic.png""/> <p><a class=""foo"" href=""www.example.com"">a</a> b</p> <p class=""foo""/> <p id=""bar"" class=""foo baz"">c</p></div>").
Proof. t_run. Qed.
(** tests/convert.rs:56 *)
Example test_convert_special_tags : t_ok config_default (L "
        section {
            Abc </def/><#ghi#>?
            <_jkl_>

            mno <~pqr <""stu""> vwx~> yz

            An <`inline {code <block>}`>
        }
    ")
  (L "<section><p>Abc <em>def</em><strong>ghi</strong>? <u>jkl</u></p> <p>mno <s>pqr <q>stu</q> vwx</s> yz</p> <p>An <code>inline {code &lt;block&gt;}</code></p></section>").
Proof. t_run. Qed.
(** tests/convert.rs:83 *)
Example test_convert_paragraph_infer_inline : t_ok config_default (L "
        section {
            foo <(bar)> baz
        }
    ")
  (L "<section><p>foo <span>bar</span> baz</p></section>").
Proof. t_run. Qed.
(** tests/convert.rs:103 *)
Example test_convert_paragraph_infer_inline_with_attr : t_ok config_default (L "
        section {
            foo <([style='color: red']>bar)> baz
        }
    ")
  (L "<section><p>foo <span style=""color: red"">bar</span> baz</p></section>").
Proof. t_run. Qed.
(** tests/convert.rs:123 *)
Example test_convert_table_infer_inline : t_ok config_default (L "
        table {
            <(foo)> <(bar)>
        }
    ")
  (L "<table><tr><td>foo</td> <td>bar</td></tr></table>").
Proof. t_run. Qed.
(** tests/convert.rs:143 *)
Example test_convert_table_infer_inline_row : t_ok config_default (L "table> <(<(foo)> <(bar)>)>")
  (L "<table><tr><td>foo</td> <td>bar</td></tr></table>").
Proof. t_run. Qed.
(** tests/convert.rs:159 *)
Example test_convert_table_infer_inline_all : t_ok config_default (L "section {
        <(table> <(<(foo)> <(bar)>)> )>
    }")
  (L "<section><p><table><tr><td>foo</td> <td>bar</td></tr></table></p></section>").
Proof. t_run. Qed.
(** tests/convert.rs:177 *)
Example test_convert_table_infer_inline_with_id : t_ok config_default (L "
        table {
            <(#cell1> foo)> <(#cell2> bar)>
        }
    ")
  (L "<table><tr><td id=""cell1"">foo</td> <td id=""cell2"">bar</td></tr></table>").
Proof. t_run. Qed.
(** tests/convert.rs:197 *)
Example test_convert_table_infer_inline_with_star : t_ok config_default (L "
        table {
            <(*> foo)> <(*> bar)>
        }
    ")
  (L "<table><tr><td>foo</td> <td>bar</td></tr></table>").
Proof. t_run. Qed.
(** tests/convert.rs:217 *)
Example test_convert_details_infer_summary : t_ok config_default (L "
        details> {
            > foo

            bar

            baz
        }
    ")
  (L "<details><summary>foo</summary> bar baz</details>").
Proof. t_run. Qed.
(** tests/convert.rs:241 *)
Example test_convert_details_infer_summary_with_paragraphs : t_ok config_default (L "
        details {
            > foo

            bar

            baz
        }
    ")
  (L "<details><summary>foo</summary> <p>bar</p> <p>baz</p></details>").
Proof. t_run. Qed.
(** tests/convert.rs:265 *)
Example test_convert_dl_infer : t_ok config_default (L "
        dl {
            > term1

            details1

            > term2

            details2
        }
    ")
  (L "<dl><dt>term1</dt> <dd>details1</dd> <dt>term2</dt> <dd>details2</dd></dl>").
Proof. t_run. Qed.
(** tests/convert.rs:294 *)
Example test_convert_dl_infer_with_blocks : t_ok config_default (L "
        dl {
            > term1
            {
                details1
            }

            > term2

            { details2 }
        }
    ")
  (L "<dl><dt>term1</dt> <dd><p>details1</p></dd> <dt>term2</dt> <dd><p>details2</p></dd></dl>").
Proof. t_run. Qed.
(** tests/convert.rs:324 *)
Example test_convert_multiline_escaped : t_ok config_default (L "
        """"""
        foo
        bar\nbaz

        qux
        """"""
    ")
  (L "<p>foo&NewLine;bar&NewLine;baz&NewLine;&NewLine;qux</p>").
Proof. t_run. Qed.
(** tests/convert.rs:347 *)
Example test_convert_multiline_unescaped : t_ok config_default (L "
        '''
        foo
        bar\nbaz

        qux
        '''
    ")
  (L "<p>foo&NewLine;bar\nbaz&NewLine;&NewLine;qux</p>").
Proof. t_run. Qed.
(** tests/convert.rs:370 *)
Example test_convert_multiline_code : t_ok config_default (L "
        ```
        foo
        bar\nbaz

        qux
        ```
    ")
  (L "<pre><code>foo&NewLine;bar\nbaz&NewLine;&NewLine;qux</code></pre>").
Proof. t_run. Qed.
(** tests/convert.rs:393 *)
Example test_convert_multiline_code_after_text : t_ok config_default (L "
        abc
        ```
        foo
        bar\nbaz

        qux
        ```
    ")
  (L "<p>abc</p> <pre><code>foo&NewLine;bar\nbaz&NewLine;&NewLine;qux</code></pre>").
Proof. t_run. Qed.
(** tests/convert.rs:418 *)
Example test_convert_small_document_with_list : t_ok (t_page config_default) (L "
    style> foo
    article {
        h1> Title

        paragraph

        ol {
            a

            b
        }
    }
    ")
  (L "<!DOCTYPE html>
<html><head><style>foo</style></head> <body><article><h1>Title</h1> <p>paragraph</p> <ol><li>a</li> <li>b</li></ol></article></body></html>").
Proof. t_run. Qed.
(** tests/error.rs:8 *)
Example test_error_unclosed_block : t_fails config_default (L "
        dl {
            > term1
            {
                details1

            > term2

            { details2 }
        }
    ")
  [mkSyn (mkR 12 13) (KUnclosed (UBlock))]
  (L "<dl><dt>term1</dt> <dd><p>details1</p> <p>term2</p> <div><p>details2</p></div></dd></dl>").
Proof. t_run. Qed.
(** tests/error.rs:55 *)
Example test_error_unclosed_special : t_fails config_default (L "
        section {
            Abc </def/><#ghi#>?
            <_jkl

            mno <~pqr <""stu""> vwx~> yz

            An <`inline {code <block>}`>
        }
    ")
  [mkSyn (mkR 63 65) (KUnclosed (USpecial Underline))]
  (L "<section><p>Abc <em>def</em><strong>ghi</strong>? <u>jkl mno <s>pqr <q>stu</q> vwx</s> yz An <code>inline {code &lt;block&gt;}</code></u></p></section>").
Proof. t_run. Qed.
(** tests/error.rs:101 *)
Example test_error_double_unclosed_special : t_fails config_default (L "
        section {
            Abc </def/><#ghi#>?
            <_jkl

            mno <~pqr <""stu vwx~> yz

            An <`inline {code <block>}`>
        }
    ")
  [mkSyn (mkR 63 65) (KUnclosed (USpecial Underline)); mkSyn (mkR 92 94) (KUnclosed (USpecial Quote))]
  (L "<section><p>Abc <em>def</em><strong>ghi</strong>? <u>jkl mno <s>pqr <q>stu vwx</q></s> yz An <code>inline {code &lt;block&gt;}</code></u></p></section>").
Proof. t_run. Qed.
(** tests/error.rs:156 *)
Example test_error_unclosed_inline : t_fails config_default (L "
        section {
            foo <(bar baz
        }
    ")
  [mkSyn (mkR 35 37) (KUnclosed (UInline))]
  (L "<section><p>foo <span>bar baz</span></p></section>").
Proof. t_run. Qed.
(** tests/error.rs:195 *)
Example test_error_unclosed_comment : t_fails config_default (L "
    foo
    <!bar
    baz
    ")
  [mkSyn (mkR 13 15) (KUnclosed (UComment))]
  (L "<p>foo <!--bar
    baz
    --></p>").
Proof. t_run. Qed.
(** tests/comment.rs:7 *)
Example test_comment_comment_does_not_create_paragraph : t_ok config_default (L "
    foo

    <!bar!>

    baz
    ")
  (L "<p>foo</p> <!--bar--> <p>baz</p>").
Proof. t_run. Qed.
(** tests/comment.rs:21 *)
Example test_comment_comment_does_not_split_paragraph : t_ok config_default (L "
    foo
    <!bar!>
    baz
    ")
  (L "<p>foo <!--bar--> baz</p>").
Proof. t_run. Qed.
(** tests/comment.rs:33 *)
Example test_comment_comment_does_not_escape_html_0 : t_ok config_default (L "
    foo
    <! <>
    bar
    !>
    baz
    ")
  (L "<p>foo <!-- <>
    bar
    --> baz</p>").
Proof. t_run. Qed.
(** tests/comment.rs:33 *)
Example test_comment_comment_does_not_escape_html_1 : t_ok (t_xml config_default) (L "
    foo
    <! <>
    bar
    !>
    baz
    ")
  (L "<p>foo <!-- <>
    bar
    --> baz</p>").
Proof. t_run. Qed.
(** tests/comment.rs:60 *)
Example test_comment_nested_comment : t_ok config_default (L "
    A
    <!B <! C D!> E !>
    F
    ")
  (L "<p>A <!--B <! C D!> E --> F</p>").
Proof. t_run. Qed.
(** tests/comment.rs:72 *)
Example test_comment_comment_separates_double_dash : t_ok config_default (L "
    A
    <! B -- C !>
    F
    ")
  (L "<p>A <!-- B - - C --> F</p>").
Proof. t_run. Qed.
(** tests/comment.rs:84 *)
Example test_comment_comment_separates_triple_dash : t_ok config_default (L "
    A
    <! B --- C !>
    F
    ")
  (L "<p>A <!-- B - - - C --> F</p>").
Proof. t_run. Qed.
(** tests/comment.rs:96 *)
Example test_comment_comment_separates_opening_right_angle : t_ok config_default (L "
    A
    <!> B C !>
    F
    ")
  (L "<p>A <!-- > B C --> F</p>").
Proof. t_run. Qed.
(** tests/comment.rs:108 *)
Example test_comment_comment_separates_opening_right_arrow : t_ok config_default (L "
    A
    <!-> B C !>
    F
    ")
  (L "<p>A <!-- -> B C --> F</p>").
Proof. t_run. Qed.
(** tests/comment.rs:120 *)
Example test_comment_comment_separates_closing_dash : t_ok config_default (L "
    A
    <! B C -!>
    F
    ")
  (L "<p>A <!-- B C - --> F</p>").
Proof. t_run. Qed.
(** tests/multiline.rs:6 *)
Example test_multiline_multiline_code_indentation : t_ok config_default (L "

    section {
        ```
        Hello
            there,
        world!
        ```
    }

    ")
  (L "<section><pre><code>Hello&NewLine;    there,&NewLine;world!</code></pre></section>").
Proof. t_run. Qed.
(** tests/multiline.rs:28 *)
Example test_multiline_multiline_code_indentation_pretty : t_ok (t_indent config_default) (L "
    section {
        ```
        Hello
            there,
        world!
        ```
    }

    ")
  (L "<section>
  <pre><code>Hello&NewLine;    there,&NewLine;world!</code></pre>
</section>
").
Proof. t_run. Qed.
(** tests/multiline.rs:52 *)
Example test_multiline_multiline_single_indentation : t_ok config_default (L "

    section {
        '''
        Hello
            there,
        world!
        '''
    }

    ")
  (L "<section><p>Hello&NewLine;    there,&NewLine;world!</p></section>").
Proof. t_run. Qed.
(** tests/multiline.rs:74 *)
Example test_multiline_multiline_single_indentation_pretty : t_ok (t_indent config_default) (L "

    section {
        '''
        Hello
            there,
        world!
        '''
    }

    ")
  (L "<section>
  <p>Hello&NewLine;    there,&NewLine;world!</p>
</section>
").
Proof. t_run. Qed.
(** tests/multiline.rs:99 *)
Example test_multiline_multiline_double_indentation : t_ok config_default (L "

    section {
        """"""
        Hello
            there,
        world!
        """"""
    }

    ")
  (L "<section><p>Hello&NewLine;    there,&NewLine;world!</p></section>").
Proof. t_run. Qed.
(** tests/multiline.rs:121 *)
Example test_multiline_multiline_double_indentation_pretty : t_ok (t_indent config_default) (L "

    section {
        """"""
        Hello
            there,
        world!
        """"""
    }

    ")
  (L "<section>
  <p>Hello&NewLine;    there,&NewLine;world!</p>
</section>
").
Proof. t_run. Qed.
(** tests/raw.rs:7 *)
Example test_raw_infer_style_raw : t_ok (t_indent config_default) (L "
head {
  style>'''
  .foo {
    color: red;
    background: blue;
  }
  '''
}
")
  (L "<head>
  <style>.foo {
  color: red;
  background: blue;
}</style>
</head>
").
Proof. t_run. Qed.
(** tests/raw.rs:34 *)
Example test_raw_infer_script_raw : t_ok (t_indent config_default) (L "
head {
  script>'''
  function foo(a, b) {
    return a < b
  }
  '''
}
")
  (L "<head>
  <script>function foo(a, b) {
  return a < b
}</script>
</head>
").
Proof. t_run. Qed.
(** tests/text.rs:6 *)
Example test_text_interpolation_angle_mod : t_ok config_default (L "
        section { <%foo </bar/>%>baz }
    ")
  (L "<section><p><%foo </bar/>%>baz</p></section>").
Proof. t_run. Qed.
(** tests/text.rs:24 *)
Example test_text_interpolation_angle_qmark : t_ok config_default (L "
        section { <?foo </bar/>?>baz }
    ")
  (L "<section><p><?foo </bar/>?>baz</p></section>").
Proof. t_run. Qed.
(** tests/text.rs:42 *)
Example test_text_interpolation_curly_mod : t_ok config_default (L "
        section { {%foo </bar/>%}baz }
    ")
  (L "<section><p>{%foo </bar/>%}baz</p></section>").
Proof. t_run. Qed.
(** tests/text.rs:60 *)
Example test_text_interpolation_curly_double : t_ok config_default (L "
        section { {{foo </bar/>}}baz }
    ")
  (L "<section><p>{{foo </bar/>}}baz</p></section>").
Proof. t_run. Qed.
(** tests/text.rs:78 *)
Example test_text_interpolation_curly_double_follows_single_word : t_ok config_default (L "
        foo {{ </bar/> }}
    ")
  (L "<p>foo {{ </bar/> }}</p>").
Proof. t_run. Qed.
(** tests/infer.rs:7 *)
Example test_infer_list_with_paragraph_items_after_paragraph : t_ok config_default (L "
    paragraph

    ol {
        a

        b
    }
    ")
  (L "<p>paragraph</p> <ol><li>a</li> <li>b</li></ol>").
Proof. t_run. Qed.
(** tests/infer.rs:32 *)
Example test_infer_table_nested_in_div : t_ok config_default (L "
    >table {
      thead>> <(A)> <(B)>

      <(C)> <(D)>
    }
    ")
  (L "<div><table><thead><tr><th>A</th> <th>B</th></tr></thead> <tr><td>C</td> <td>D</td></tr></table></div>").
Proof. t_run. Qed.
(** tests/escape.rs:7 *)
Example test_escape_x_letters : t_ok config_default (L "
        \x41\x42
    ")
  (L "<p>AB</p>").
Proof. t_run. Qed.
(** tests/escape.rs:16 *)
Example test_escape_x_letters_multiline : t_ok config_default (L "
        """"""
        \x41\x42
        """"""
    ")
  (L "<p>AB</p>").
Proof. t_run. Qed.
(** tests/escape.rs:27 *)
Example test_escape_u_letters : t_ok config_default (L "
        \u{41}\u{000042}
    ")
  (L "<p>AB</p>").
Proof. t_run. Qed.
(** tests/escape.rs:36 *)
Example test_escape_u_letters_multiline : t_ok config_default (L "
        """"""
        \u{41}\u{000042}
        """"""
    ")
  (L "<p>AB</p>").
Proof. t_run. Qed.

(** ** The examples in the documentation of lib.rs *)
(** lib.rs:43-67, 121-146 *)
Example doc_convert : t_ok config_default (L "
{
    Hello there,
    world!
    img[src=""./pic.png""]>

    > Click <(a.example-link[href=www.example.com]> here )>
    for more.
    .empty>
    .foo#bar.baz> Goodbye
}
")
  (L "<div><p>Hello there, world!</p> <img src=""./pic.png""> <p>Click <a class=""example-link"" href=""www.example.com"">here</a> for more.</p> <p class=""empty""></p> <p id=""bar"" class=""foo baz"">Goodbye</p></div>").
Proof. t_run. Qed.
(** lib.rs:82-103 *)
Example doc_convert_forgiving : t_fails config_default (L "
table {
  {
    > Cell A
    > Cell B
  {
    > Cell C
    > Cell D
  }
}
")
  [mkSyn (mkR 7 8) (KUnclosed UBlock)]
  (L "<table><tr><td>Cell A</td> <td>Cell B</td> <td><p>Cell C</p> <p>Cell D</p></td></tr></table>").
Proof. t_run. Qed.

(** ** mintyml/src/ast.rs, mintyml/src/ast/selectors.rs *)
Definition t_end {A} (f : pstate -> outcome A) (src : str) : option N :=
  match f (mkP 0 [] src) with Got _ s => Some (p_at s) | _ => None end.
Definition t_segment := tok (x_text_segment is_ascii_alnum).
Definition t_chain := tok (x_selector_chain is_ascii_alnum).
(** ast.rs:67-81 *)
Example text_segment_excludes_line_breaks :
  map (t_end t_segment) [L "foo
bar"; L "foo
 bar"; L "foo 
 bar"; L "foo 
bar"] = [Some 3; Some 3; Some 3; Some 3].
Proof. t_run. Qed.
(** ast.rs:83-97 *)
Example text_segment_and_white_space :
  t_end t_segment (L " foo") = None /\ t_segment (mkP 1 (L " ") (L "foo")) = Got (mkR 1 4) (mkP 4 (L "oof ") []).
Proof. split; t_run. Qed.
(** ast.rs:99-127 *)
Example text_segment_before_gt :
  map (t_end t_segment) [L "abc1> "; L "abcd> "; L "abc)> "; L "abc?> "; L "abc,>>
"] = [None; None; Some 3; Some 3; Some 3].
Proof. t_run. Qed.
(** ast.rs:129-156 *)
Example selector_chain_before_gt :
  map (t_end t_chain) [L "abc1> "; L "abcd> "; L "abc)> "; L "abc?> "; L "abc,>>
"] = [Some 4; Some 4; None; None; None].
Proof. t_run. Qed.
(** ast.rs:158-248: these parse. *)
Definition demo_src : str := (L "
section {
    h1#foo.bar[
        x
    ].baz> <(foo)>

    div> { 1 }

    Hello, world!
    Click <(a[x=1]> here )> to get<!this is a comment!> started.

    div {
        a>1
    }

    > {
        This paragraph contains <(em> emphasized)>,
        <(strong> strong)>, and <(u> underlined)> text.
    }
}
section {
    line 1
    line 2
    >new paragraph
    >new paragraph
    same paragraph
    >new paragraph
}
section#list-section {
    Following is a list:

    div> foo

    ul {
        Item 1

        Item 2

        Item
        3

        #item4> Item 4

        {
            Item 5
        }

        > {
            Item 6
        }
    }
}
section {
    Following is a table:

    table {
        {
            th> Foo
            th> Bar
        }
        {
            a

            b
        }
        <( c )> <( d )>
    }
}
    ").
Example ast_demo : (match t_parse demo_src with inl _ => true | inr _ => false end) = true.
Proof. t_run. Qed.
Example ast_demo2 : (match t_parse (L "
section {
    a

    b
}
    ") with inl _ => true | inr _ => false end) = true.
Proof. t_run. Qed.
(** ast.rs:250-285: the number of nodes of a line *)
Definition t_node := p_node is_ascii_alnum 100.
Example lines :
  (match p_line t_node (mkP 0 [] []) with Got l _ => Some (length (ln_nodes l)) | _ => None end,
   match then_ (text_tok (L "{") (mkP 0 [] (L "{ foo }"))) (fun _ s => p_line t_node s) with
   | Got l s => Some (length (ln_nodes l), p_rest s)
   | _ => None
   end) = (Some 0%nat, Some (1%nat, L "}")).
Proof. t_run. Qed.
Example multi_paragraph_block : t_end t_node (L "{
    foo

    foo
}") = Some 20.
Proof. t_run. Qed.
Example right_arrow_node : t_node (mkP 0 [] (L ">")) = Got (ANode 0 (ANElement (ALineElt (mkR 0 1))) 1) (mkP 1 (L ">") []).
Proof. t_run. Qed.
(** selectors.rs:156-189 *)
Definition t_selector := p_selector is_ascii_alnum.
Example selector_example : t_end t_selector (L "a.b#c[x].b>") = Some 10 /\ t_end (vec t_selector) (L ">") = Some 0
  /\ t_end (vec t_selector) (L "a.b#c[x].b>") = Some 10.
Proof. repeat split; t_run. Qed.
Example invalid_selector :
  match t_selector (mkP 0 [] (L "a.b#c[x]d.e>")) with
  | Got a _ => nth 1 (as_segments a) (ASegClass [])
  | _ => ASegClass []
  end = ASegClass [AInvalid (mkR 8 11)].
Proof. t_run. Qed.

(** ** minty-cli/src/tests.rs *)
(** A file system of files only, seen from a directory *)
Definition t_comps_eqb (a b : list component) : bool := comps_prefix a b && comps_prefix b a.
Definition t_io (files : list (str * str)) (cwd stdin : str) : io :=
  let at_ p := components (push cwd p) in
  let file p := find (fun f => t_comps_eqb (at_ p) (components (fst f))) files in
  let inside p := filter (fun f => comps_prefix (at_ p) (components (fst f))) files in
  mkIo
    (fun p => inl (if is_some (file p) then Some (mkInfo true false)
                   else match inside p with [] => None | _ => Some (mkInfo false true) end))
    (fun p => inl (flat_map (fun f => match skipn (length (at_ p)) (components (fst f)) with
                                      | [Normal n] => [(n, mkInfo true false)]
                                      | Normal n :: _ => [(n, mkInfo false true)]
                                      | _ => []
                                      end) (inside p)))
    (fun s => match s with
              | SFile p => match file p with Some f => inl (snd f) | None => inr (mkErr None None (L "not found")) end
              | Stdio => inl stdin
              end)
    (fun _ _ => None).
Definition t_convert (src : str) (cfg : config) : str + convert_error :=
  match convert t_parse source_slice src cfg with Some r => r | None => inl (L "out of fuel") end.
Definition t_forgiving (src : str) (cfg : config) : str + option str * convert_error :=
  match convert_forgiving t_parse source_slice src cfg with Some r => r | None => inl (L "out of fuel") end.
(** What is written, with paths seen from the root, and whether all went well. *)
Definition t_cli (files : list (str * str)) (cwd stdin : str) (a : args) : list (list component * str) * bool :=
  let fs := t_io files cwd stdin in
  match make_plan fs a with
  | inl p =>
      let jobs := match p with PSingle s d => [(s, d)] | PMany l => l end in
      let rs := map (convert_job fs t_convert t_forgiving a) jobs in
      (flat_map (fun r => map (fun w => (match fst w with SFile p => components (push cwd p) | Stdio => [] end, snd w)) (jr_writes r)) rs,
       forallb (fun r => match jr_result r, jr_events r with inl true, [] => true | _, _ => false end) rs)
  | inr _ => ([], false)
  end.
Definition t_opts (page : option bool) : options := mkOpts false false 2 page false [] None None None None.
Definition t_args (page : option bool) (stdin : bool) (dir : option str) (files : option (list str)) (r : option (option N)) (out : option str) (stdout : bool) : args :=
  mkArgs stdin dir files r out stdout (t_opts page) MDefault.
Definition t_files (dir : option str) (files : option (list str)) (r : option (option N)) (out : option str) : args :=
  t_args (Some false) false dir files r out false.
Definition t_at (p out : str) : list component * str := (components p, out).
Definition basic_src : str := L "
div {
    <#Hello#>, </world/>!
}
".
Definition basic_src2 : str := L "
ul {
    <#Hello#>,

    </world/>!
}
".
Definition basic_out : str := L "<div><p><strong>Hello</strong>, <em>world</em>!</p></div>".
Definition basic_out2 : str := L "<ul><li><strong>Hello</strong>,</li> <li><em>world</em>!</li></ul>".
(** tests.rs:63-69 *)
Example basic_test : t_cli [] (L "/") basic_src (t_args (Some false) true None None None None true) = ([([], basic_out)], true).
Proof. t_run. Qed.
(** tests.rs:71-104 *)
Example complete_page : forall explicit : bool,
  t_cli [] (L "/") (L "
title> Foo
div {
    <#Hello#>, </world/>!
}
") (t_args (if explicit then Some true else None) true None None None None true)
  = ([([], L "<!DOCTYPE html>
<html><head><title>Foo</title></head> <body><div><p><strong>Hello</strong>, <em>world</em>!</p></div></body></html>")], true).
Proof. intros [|]; t_run. Qed.
Definition one_file := [(L "/a/b/c/d/foo.mty", basic_src)].
(** tests.rs:106-161 *)
Example convert_explicit_file :
  t_cli one_file (L "/a/b") [] (t_files None (Some [L "c/d/foo.mty"]) None None) = ([t_at (L "/a/b/c/d/foo.html") basic_out], true) /\
  t_cli one_file (L "/a/b") [] (t_files None (Some [L "c/d/foo.mty"]) None (Some (L "c/foo2.html"))) = ([t_at (L "/a/b/c/foo2.html") basic_out], true) /\
  t_cli one_file (L "/a/b") [] (t_files None (Some [L "c/d/foo.mty"]) None (Some (L "/a/foo2.html"))) = ([t_at (L "/a/foo2.html") basic_out], true).
Proof. repeat split; t_run. Qed.
(** tests.rs:163-237 *)
Definition two_files := [(L "/a/bar.mty", basic_src2); (L "/a/b/c/d/foo.minty", basic_src)].
Definition two_args := Some [L "c/d/foo.minty"; L "/a/bar.mty"].
Example convert_explicit_files :
  t_cli two_files (L "/a/b") [] (t_files None two_args None None)
  = ([t_at (L "/a/b/c/d/foo.html") basic_out; t_at (L "/a/bar.html") basic_out2], true) /\
  t_cli two_files (L "/a/b") [] (t_files None two_args None (Some (L "c/new_dir1/new_dir2/")))
  = ([t_at (L "/a/b/c/new_dir1/new_dir2/foo.html") basic_out; t_at (L "/a/b/c/new_dir1/new_dir2/bar.html") basic_out2], true) /\
  t_cli two_files (L "/a/b") [] (t_files None two_args None (Some (L "/a/new_dir1/new_dir2/")))
  = ([t_at (L "/a/new_dir1/new_dir2/foo.html") basic_out; t_at (L "/a/new_dir1/new_dir2/bar.html") basic_out2], true).
Proof. repeat split; t_run. Qed.
(** tests.rs:239-299; the depth is given, as the default is too big a [nat] to compute with *)
Definition four_files := [(L "/a/b/c/d2/e2/bar.mty", basic_src2); (L "/a/b/c/d/foo.minty", basic_src);
  (L "/a/b/c/baz.mty", basic_src); (L "/a/b/c/qux.txt", L "no mintyml extension")].
Example convert_dir :
  t_cli four_files (L "/a/b") [] (t_files (Some (L "c")) None None None) = ([t_at (L "/a/b/c/baz.html") basic_out], true) /\
  t_cli four_files (L "/a/b") [] (t_files (Some (L "c")) None (Some (Some 5)) None)
  = ([t_at (L "/a/b/c/d2/e2/bar.html") basic_out2; t_at (L "/a/b/c/d/foo.html") basic_out; t_at (L "/a/b/c/baz.html") basic_out], true).
Proof. split; t_run. Qed.

(** ** minty-wasm/src-ts/index.test.ts *)
Definition t_js (special : js_value) (src : str) := js_convert t_parse source_slice (fun s => s) (fun s => s)
  (mkJO None (Some (Finite 4%Z 1%positive)) None special (JPrimitive false) None) src.
Definition t_object (l : list (str * js_value)) : js_value :=
  JObject (fun key => inl (match find (fun p => str_eqb (fst p) key) l with Some (_, v) => v | None => JPrimitive false end)).
(** index.test.ts:4-33 *)
Example js_simple_example : t_js (JPrimitive false) (L "        article {
            h1> Foo

            ul {
                > </a/>
                > b
                > c
            }
        }
        ") = Some (inl (Some (L "<article>
    <h1>Foo</h1>
    <ul>
        <li><em>a</em></li>
        <li>b</li>
        <li>c</li>
    </ul>
</article>
"))).
Proof. t_run. Qed.
(** index.test.ts:34-56 *)
Example js_special_tags : t_js (t_object [(L "emphasis", JString (L "i")); (L "strong", JString (L "b"));
    (L "underline", JString (L "ins")); (L "strike", JString (L "del"))]) (L "        </foo/> <#bar#> <_baz_> <~qux~>
        ") = Some (inl (Some (L "<p><i>foo</i> <b>bar</b> <ins>baz</ins> <del>qux</del></p>
"))).
Proof. t_run. Qed.
