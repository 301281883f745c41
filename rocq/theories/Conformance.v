(** Conformance of the model with the unit tests of the repository: the inputs and
    expected outputs of the tests under /repo/src, run through the model.  These are
    tests of the model, not properties. *)
From Verif Require Import Errors.
Open Scope string_scope.
Open Scope N_scope.
Open Scope list_scope.

(** A token with all its text owned, for comparison. *)
Definition own_token (t : token) : token :=
  match t with
  | TTagDirective h p => TTagDirective (own h) (own p)
  | TAlias a => TAlias (own a)
  | TAnchor a => TAnchor (own a)
  | TTag h s => TTag (own h) (own s)
  | TScalar c k => TScalar (own c) k
  | t => t
  end.

(** src/scanner/mod.rs:1182-1197 and 1232-1243, [ScanIter::next_token]: [n] calls. *)
Fixpoint scan_iter (o : flags) (data : str) (n : nat) (sc : scanner) (q : tokens) (done : bool)
  : list (sres (option token)) :=
  match n with
  | O => []
  | S n' =>
      let next sc q :=
        match q_pop entry_cmp q with
        | (Some e, q') =>
            match into_token (e_wrap e) with
            | Ok t => Ok (Some (own_token t)) :: scan_iter o data n' sc q' false
            | Err x => Err x :: scan_iter o data n' sc q' false
            | Panic => [Panic]
            | Fuel => [Fuel]
            end
        | (None, q') => Ok None :: scan_iter o data n' sc q' false
        end in
      if done then Ok None :: scan_iter o data n' sc q true
      else if Nat.eqb (q_len q) 0 then
        match scan_tokens o data sc q with
        | (sc', q', Ok _) =>
            if Nat.eqb (q_len q') 0 then Ok None :: scan_iter o data n' sc' q' true
            else next sc' q'
        | (sc', q', Err x) => Err x :: scan_iter o data n' sc' q' false
        | (_, _, Panic) => [Panic]
        | (_, _, Fuel) => [Fuel]
        end
      else next sc q
  end.

Definition scans (lazy : bool) (data : str) (expected : list (sres (option token))) : Prop :=
  scan_iter (mkFlags false lazy) data (List.length expected) scanner0 q_new false = expected.

(** src/scanner/tests/document.rs:13 *)
Example scan_document_multi_document_empty :
  let data := (bytes "---
---
---") in
  let expected := [Ok (Some (TStreamStart));
    Ok (Some (TDocumentStart));
    Ok (Some (TDocumentStart));
    Ok (Some (TDocumentStart));
    Ok (Some (TStreamEnd));
    Ok None] in
  scans false data expected /\ scans true data expected.
Proof. cbv zeta; vm_compute; repeat split. Qed.

(** src/scanner/tests/document.rs:31 *)
Example scan_document_document_markers :
  let data := (bytes "
---
   
...") in
  let expected := [Ok (Some (TStreamStart));
    Ok (Some (TDocumentStart));
    Ok (Some (TDocumentEnd));
    Ok (Some (TStreamEnd));
    Ok None] in
  scans false data expected /\ scans true data expected.
Proof. cbv zeta; vm_compute; repeat split. Qed.

(** src/scanner/tests/document.rs:48 *)
Example scan_document_comment_in_document_markers :
  let data := (bytes "---
# abcdefg 
  # another comment     
...") in
  let expected := [Ok (Some (TStreamStart));
    Ok (Some (TDocumentStart));
    Ok (Some (TDocumentEnd));
    Ok (Some (TStreamEnd));
    Ok None] in
  scans false data expected /\ scans true data expected.
Proof. cbv zeta; vm_compute; repeat split. Qed.

(** src/scanner/tests/directive.rs:13 *)
Example scan_directive_directive_version :
  let data := (bytes "%YAML   1.1 # a comment
") in
  let expected := [Ok (Some (TStreamStart));
    Ok (Some (TVersionDirective 1 1));
    Ok (Some (TStreamEnd));
    Ok None] in
  scans false data expected /\ scans true data expected.
Proof. cbv zeta; vm_compute; repeat split. Qed.

(** src/scanner/tests/directive.rs:29 *)
Example scan_directive_directive_version_large :
  let data := (bytes "%YAML   121.80 # a comment
") in
  let expected := [Ok (Some (TStreamStart));
    Ok (Some (TVersionDirective 121 80));
    Ok (Some (TStreamEnd));
    Ok None] in
  scans false data expected /\ scans true data expected.
Proof. cbv zeta; vm_compute; repeat split. Qed.

(** src/scanner/tests/directive.rs:45 *)
Example scan_directive_directive_version_invalid :
  let data := (bytes "%YAML   foo.bar # a comment
") in
  let expected := [Ok (Some (TStreamStart));
    Err InvalidVersion] in
  scans false data expected /\ scans true data expected.
Proof. cbv zeta; vm_compute; repeat split. Qed.

(** src/scanner/tests/directive.rs:59 *)
Example scan_directive_directive_tag_named :
  let data := (bytes "%TAG !named! my:cool:tag # a comment
") in
  let expected := [Ok (Some (TStreamStart));
    Ok (Some (TTagDirective (Owned (bytes "!named!")) (Owned (bytes "my:cool:tag"))));
    Ok (Some (TStreamEnd));
    Ok None] in
  scans false data expected /\ scans true data expected.
Proof. cbv zeta; vm_compute; repeat split. Qed.

(** src/scanner/tests/directive.rs:75 *)
Example scan_directive_directive_tag_primary :
  let data := (bytes "%TAG ! my:cool:tag
") in
  let expected := [Ok (Some (TStreamStart));
    Ok (Some (TTagDirective (Owned (bytes "!")) (Owned (bytes "my:cool:tag"))));
    Ok (Some (TStreamEnd));
    Ok None] in
  scans false data expected /\ scans true data expected.
Proof. cbv zeta; vm_compute; repeat split. Qed.

(** src/scanner/tests/directive.rs:91 *)
Example scan_directive_directive_tag_secondary :
  let data := (bytes "%TAG !! @my/crazy&tag:  
") in
  let expected := [Ok (Some (TStreamStart));
    Ok (Some (TTagDirective (Owned (bytes "!!")) (Owned (bytes "@my/crazy&tag:"))));
    Ok (Some (TStreamEnd));
    Ok None] in
  scans false data expected /\ scans true data expected.
Proof. cbv zeta; vm_compute; repeat split. Qed.

(** src/scanner/tests/directive.rs:107 *)
Example scan_directive_directive_tag_ending_ws :
  let data := (bytes "%TAG !! @my/crazy&tag:") in
  let expected := [Ok (Some (TStreamStart));
    Err UnexpectedEOF] in
  scans false data expected /\ scans true data expected.
Proof. cbv zeta; vm_compute; repeat split. Qed.

(** src/scanner/tests/directive.rs:121 *)
Example scan_directive_directive_tag_percent_encoding :
  let data := (bytes "%TAG !! :My:%C6%86razy:T%c8%82g:
") in
  let expected := [Ok (Some (TStreamStart));
    Ok (Some (TTagDirective (Owned (bytes "!!")) (Owned [58%N; 77%N; 121%N; 58%N; 198%N; 134%N; 114%N; 97%N; 122%N; 121%N; 58%N; 84%N; 200%N; 130%N; 103%N; 58%N])));
    Ok (Some (TStreamEnd));
    Ok None] in
  scans false data expected /\ scans true data expected.
Proof. cbv zeta; vm_compute; repeat split. Qed.

(** src/scanner/tests/key.rs:14 *)
Example scan_key_explicit_simple :
  let data := (bytes "
? 'an explicit key'
: 'a value'
") in
  let expected := [Ok (Some (TStreamStart));
    Ok (Some (TBlockMappingStart));
    Ok (Some (TKey));
    Ok (Some (TScalar (Owned (bytes "an explicit key")) SingleQuote));
    Ok (Some (TValue));
    Ok (Some (TScalar (Owned (bytes "a value")) SingleQuote));
    Ok (Some (TBlockEnd));
    Ok (Some (TStreamEnd));
    Ok None] in
  scans false data expected /\ scans true data expected.
Proof. cbv zeta; vm_compute; repeat split. Qed.

(** src/scanner/tests/key.rs:36 *)
Example scan_key_explicit_mapping_missing_value :
  let data := (bytes "? 'sub mapping key': 'sub mapping value'") in
  let expected := [Ok (Some (TStreamStart));
    Ok (Some (TBlockMappingStart));
    Ok (Some (TKey));
    Ok (Some (TBlockMappingStart));
    Ok (Some (TKey));
    Ok (Some (TScalar (Owned (bytes "sub mapping key")) SingleQuote));
    Ok (Some (TValue));
    Ok (Some (TScalar (Owned (bytes "sub mapping value")) SingleQuote));
    Ok (Some (TBlockEnd));
    Ok (Some (TBlockEnd));
    Ok (Some (TStreamEnd));
    Ok None] in
  scans false data expected /\ scans true data expected.
Proof. cbv zeta; vm_compute; repeat split. Qed.

(** src/scanner/tests/key.rs:61 *)
Example scan_key_explicit_mapping :
  let data := (bytes "
? 'key mapping': 'value'
  'another': 'value'
: 'bar'
") in
  let expected := [Ok (Some (TStreamStart));
    Ok (Some (TBlockMappingStart));
    Ok (Some (TKey));
    Ok (Some (TBlockMappingStart));
    Ok (Some (TKey));
    Ok (Some (TScalar (Owned (bytes "key mapping")) SingleQuote));
    Ok (Some (TValue));
    Ok (Some (TScalar (Owned (bytes "value")) SingleQuote));
    Ok (Some (TKey));
    Ok (Some (TScalar (Owned (bytes "another")) SingleQuote));
    Ok (Some (TValue));
    Ok (Some (TScalar (Owned (bytes "value")) SingleQuote));
    Ok (Some (TBlockEnd));
    Ok (Some (TValue));
    Ok (Some (TScalar (Owned (bytes "bar")) SingleQuote));
    Ok (Some (TBlockEnd));
    Ok (Some (TStreamEnd));
    Ok None] in
  scans false data expected /\ scans true data expected.
Proof. cbv zeta; vm_compute; repeat split. Qed.

(** src/scanner/tests/key.rs:93 *)
Example scan_key_stale_required_oversized :
  let data := ((bytes "
'a map': 'a key'
'key start... then SPACE!!!") ++ repeat 32%N (N.to_nat 1026) ++ (bytes "': 'a value'")) in
  let expected := [Ok (Some (TStreamStart));
    Ok (Some (TBlockMappingStart));
    Ok (Some (TKey));
    Ok (Some (TScalar (Owned (bytes "a map")) SingleQuote));
    Ok (Some (TValue));
    Ok (Some (TScalar (Owned (bytes "a key")) SingleQuote));
    Err MissingValue] in
  scans false data expected /\ scans true data expected.
Proof. cbv zeta; vm_compute; repeat split. Qed.

(** src/scanner/tests/key.rs:117 *)
Example scan_key_stale_oversized :
  let data := ((bytes "
'key start... then SPACE!!!") ++ repeat 32%N (N.to_nat 1026) ++ (bytes "': 'a value'")) in
  let expected := [Ok (Some (TStreamStart));
    Err InvalidValue] in
  scans false data expected /\ scans true data expected.
Proof. cbv zeta; vm_compute; repeat split. Qed.

(** src/scanner/tests/key.rs:135 *)
Example scan_key_stale_after_newline :
  let data := (bytes "
'a multi-line
 key': 'a value'
") in
  let expected := [Ok (Some (TStreamStart));
    Err InvalidValue] in
  scans false data expected /\ scans true data expected.
Proof. cbv zeta; vm_compute; repeat split. Qed.

(** src/scanner/tests/whitespace.rs:14 *)
Example scan_whitespace_empty :
  let data := (bytes "") in
  let expected := [Ok (Some (TStreamStart));
    Ok (Some (TStreamEnd));
    Ok None] in
  scans false data expected /\ scans true data expected.
Proof. cbv zeta; vm_compute; repeat split. Qed.

(** src/scanner/tests/whitespace.rs:55 *)
Example scan_whitespace_eat_comments :
  let data := (bytes "  # a comment

#one two three
       #four!") in
  let expected := [Ok (Some (TStreamStart));
    Ok (Some (TStreamEnd));
    Ok None] in
  scans false data expected /\ scans true data expected.
Proof. cbv zeta; vm_compute; repeat split. Qed.

(** src/scanner/tests/anchor.rs:13 *)
Example scan_anchor_anchor_alias :
  let data := (bytes "*alias
") in
  let expected := [Ok (Some (TStreamStart));
    Ok (Some (TAlias (Owned (bytes "alias"))));
    Ok (Some (TStreamEnd));
    Ok None] in
  scans false data expected /\ scans true data expected.
Proof. cbv zeta; vm_compute; repeat split. Qed.

(** src/scanner/tests/anchor.rs:29 *)
Example scan_anchor_anchor :
  let data := (bytes "    &anchor     
") in
  let expected := [Ok (Some (TStreamStart));
    Ok (Some (TAnchor (Owned (bytes "anchor"))));
    Ok (Some (TStreamEnd));
    Ok None] in
  scans false data expected /\ scans true data expected.
Proof. cbv zeta; vm_compute; repeat split. Qed.

(** src/scanner/tests/tag.rs:13 *)
Example scan_tag_primary :
  let data := (bytes "!a ") in
  let expected := [Ok (Some (TStreamStart));
    Ok (Some (TTag (Owned (bytes "!")) (Owned (bytes "a"))));
    Ok (Some (TStreamEnd));
    Ok None] in
  scans false data expected /\ scans true data expected.
Proof. cbv zeta; vm_compute; repeat split. Qed.

(** src/scanner/tests/tag.rs:29 *)
Example scan_tag_secondary :
  let data := (bytes "!!str ") in
  let expected := [Ok (Some (TStreamStart));
    Ok (Some (TTag (Owned (bytes "!!")) (Owned (bytes "str"))));
    Ok (Some (TStreamEnd));
    Ok None] in
  scans false data expected /\ scans true data expected.
Proof. cbv zeta; vm_compute; repeat split. Qed.

(** src/scanner/tests/tag.rs:45 *)
Example scan_tag_named :
  let data := (bytes "    !named!tag-suffix ") in
  let expected := [Ok (Some (TStreamStart));
    Ok (Some (TTag (Owned (bytes "!named!")) (Owned (bytes "tag-suffix"))));
    Ok (Some (TStreamEnd));
    Ok None] in
  scans false data expected /\ scans true data expected.
Proof. cbv zeta; vm_compute; repeat split. Qed.

(** src/scanner/tests/tag.rs:61 *)
Example scan_tag_escaped :
  let data := (bytes "!n!my:%3D%3descaped: ") in
  let expected := [Ok (Some (TStreamStart));
    Ok (Some (TTag (Owned (bytes "!n!")) (Owned (bytes "my:==escaped:"))));
    Ok (Some (TStreamEnd));
    Ok None] in
  scans false data expected /\ scans true data expected.
Proof. cbv zeta; vm_compute; repeat split. Qed.

(** src/scanner/tests/tag.rs:77 *)
Example scan_tag_non_resolving :
  let data := (bytes "! ") in
  let expected := [Ok (Some (TStreamStart));
    Ok (Some (TTag (Owned (bytes "!")) (Owned (bytes ""))));
    Ok (Some (TStreamEnd));
    Ok None] in
  scans false data expected /\ scans true data expected.
Proof. cbv zeta; vm_compute; repeat split. Qed.

(** src/scanner/tests/scalar.rs:20 *)
Example scan_scalar_scalar_simple :
  let data := (bytes "hello from a plain scalar!") in
  let expected := [Ok (Some (TStreamStart));
    Ok (Some (TScalar (Owned (bytes "hello from a plain scalar!")) Plain));
    Ok (Some (TStreamEnd));
    Ok None] in
  scans false data expected /\ scans true data expected.
Proof. cbv zeta; vm_compute; repeat split. Qed.

(** src/scanner/tests/scalar.rs:36 *)
Example scan_scalar_scalar_starting_indicator :
  let data := (bytes "-a key-: ?value
:: :value") in
  let expected := [Ok (Some (TStreamStart));
    Ok (Some (TBlockMappingStart));
    Ok (Some (TKey));
    Ok (Some (TScalar (Owned (bytes "-a key-")) Plain));
    Ok (Some (TValue));
    Ok (Some (TScalar (Owned (bytes "?value")) Plain));
    Ok (Some (TKey));
    Ok (Some (TScalar (Owned (bytes ":")) Plain));
    Ok (Some (TValue));
    Ok (Some (TScalar (Owned (bytes ":value")) Plain));
    Ok (Some (TBlockEnd));
    Ok (Some (TStreamEnd));
    Ok None] in
  scans false data expected /\ scans true data expected.
Proof. cbv zeta; vm_compute; repeat split. Qed.

(** src/scanner/tests/scalar.rs:68 *)
Example scan_scalar_scalar_single_simple :
  let data := (bytes "'hello world, single quoted flow scalar'") in
  let expected := [Ok (Some (TStreamStart));
    Ok (Some (TScalar (Owned (bytes "hello world, single quoted flow scalar")) SingleQuote));
    Ok (Some (TStreamEnd));
    Ok None] in
  scans false data expected /\ scans true data expected.
Proof. cbv zeta; vm_compute; repeat split. Qed.

(** src/scanner/tests/scalar.rs:84 *)
Example scan_scalar_scalar_single_complex :
  let data := (bytes "'line0
            line1
            
            line3
            line4'") in
  let expected := [Ok (Some (TStreamStart));
    Ok (Some (TScalar (Owned (bytes "line0 line1
line3 line4")) SingleQuote));
    Ok (Some (TStreamEnd));
    Ok None] in
  scans false data expected /\ scans true data expected.
Proof. cbv zeta; vm_compute; repeat split. Qed.

(** src/scanner/tests/scalar.rs:104 *)
Example scan_scalar_scalar_double_simple :
  let data := (bytes """line0 line1\nline3\tline4""") in
  let expected := [Ok (Some (TStreamStart));
    Ok (Some (TScalar (Owned [108%N; 105%N; 110%N; 101%N; 48%N; 32%N; 108%N; 105%N; 110%N; 101%N; 49%N; 10%N; 108%N; 105%N; 110%N; 101%N; 51%N; 9%N; 108%N; 105%N; 110%N; 101%N; 52%N]) DoubleQuote));
    Ok (Some (TStreamEnd));
    Ok None] in
  scans false data expected /\ scans true data expected.
Proof. cbv zeta; vm_compute; repeat split. Qed.

(** src/scanner/tests/scalar.rs:120 *)
Example scan_scalar_scalar_double_complex :
  let data := (bytes """line0
            lin\
            e1
            
            line3
            line4""") in
  let expected := [Ok (Some (TStreamStart));
    Ok (Some (TScalar (Owned (bytes "line0 line1
line3 line4")) DoubleQuote));
    Ok (Some (TStreamEnd));
    Ok None] in
  scans false data expected /\ scans true data expected.
Proof. cbv zeta; vm_compute; repeat split. Qed.

(** src/scanner/tests/scalar.rs:141 *)
Example scan_scalar_tag_scalar_complex :
  let data := (bytes "
        !!str
        ""line0
            lin\
            e1
            
            line3
        line4""") in
  let expected := [Ok (Some (TStreamStart));
    Ok (Some (TTag (Owned (bytes "!!")) (Owned (bytes "str"))));
    Ok (Some (TScalar (Owned (bytes "line0 line1
line3 line4")) DoubleQuote));
    Ok (Some (TStreamEnd));
    Ok None] in
  scans false data expected /\ scans true data expected.
Proof. cbv zeta; vm_compute; repeat split. Qed.

(** src/scanner/tests/scalar.rs:172 *)
Example scan_scalar_scalar_literal_simple :
  let data := (bytes "
a key: |  # and a comment!
    a block scalar,
    separated by new lines
") in
  let expected := [Ok (Some (TStreamStart));
    Ok (Some (TBlockMappingStart));
    Ok (Some (TKey));
    Ok (Some (TScalar (Owned (bytes "a key")) Plain));
    Ok (Some (TValue));
    Ok (Some (TScalar (Owned (bytes "a block scalar,
separated by new lines
")) Literal));
    Ok (Some (TBlockEnd));
    Ok (Some (TStreamEnd));
    Ok None] in
  scans false data expected /\ scans true data expected.
Proof. cbv zeta; vm_compute; repeat split. Qed.

(** src/scanner/tests/scalar.rs:197 *)
Example scan_scalar_scalar_folded_simple :
  let data := (bytes "
a block scalar: >-  # and a comment!
    with lines folded,
    to a space
") in
  let expected := [Ok (Some (TStreamStart));
    Ok (Some (TBlockMappingStart));
    Ok (Some (TKey));
    Ok (Some (TScalar (Owned (bytes "a block scalar")) Plain));
    Ok (Some (TValue));
    Ok (Some (TScalar (Owned (bytes "with lines folded, to a space")) Folded));
    Ok (Some (TBlockEnd));
    Ok (Some (TStreamEnd));
    Ok None] in
  scans false data expected /\ scans true data expected.
Proof. cbv zeta; vm_compute; repeat split. Qed.

(** src/scanner/tests/collection.rs:17 *)
Example scan_collection_block_sequence :
  let data := (bytes "
- 'a'
- 'block'
- 'sequence'
") in
  let expected := [Ok (Some (TStreamStart));
    Ok (Some (TBlockSequenceStart));
    Ok (Some (TBlockEntry));
    Ok (Some (TScalar (Owned (bytes "a")) SingleQuote));
    Ok (Some (TBlockEntry));
    Ok (Some (TScalar (Owned (bytes "block")) SingleQuote));
    Ok (Some (TBlockEntry));
    Ok (Some (TScalar (Owned (bytes "sequence")) SingleQuote));
    Ok (Some (TBlockEnd));
    Ok (Some (TStreamEnd));
    Ok None] in
  scans false data expected /\ scans true data expected.
Proof. cbv zeta; vm_compute; repeat split. Qed.

(** src/scanner/tests/collection.rs:42 *)
Example scan_collection_block_sequence_nested :
  let data := (bytes "
- - 'a'
  - 
    'nested'
- 'block'
- 'sequence'
") in
  let expected := [Ok (Some (TStreamStart));
    Ok (Some (TBlockSequenceStart));
    Ok (Some (TBlockEntry));
    Ok (Some (TBlockSequenceStart));
    Ok (Some (TBlockEntry));
    Ok (Some (TScalar (Owned (bytes "a")) SingleQuote));
    Ok (Some (TBlockEntry));
    Ok (Some (TScalar (Owned (bytes "nested")) SingleQuote));
    Ok (Some (TBlockEnd));
    Ok (Some (TBlockEntry));
    Ok (Some (TScalar (Owned (bytes "block")) SingleQuote));
    Ok (Some (TBlockEntry));
    Ok (Some (TScalar (Owned (bytes "sequence")) SingleQuote));
    Ok (Some (TBlockEnd));
    Ok (Some (TStreamEnd));
    Ok None] in
  scans false data expected /\ scans true data expected.
Proof. cbv zeta; vm_compute; repeat split. Qed.

(** src/scanner/tests/collection.rs:74 *)
Example scan_collection_block_mapping_key_only :
  let data := (bytes "'key': ") in
  let expected := [Ok (Some (TStreamStart));
    Ok (Some (TBlockMappingStart));
    Ok (Some (TKey));
    Ok (Some (TScalar (Owned (bytes "key")) SingleQuote));
    Ok (Some (TValue));
    Ok (Some (TBlockEnd));
    Ok (Some (TStreamEnd));
    Ok None] in
  scans false data expected /\ scans true data expected.
Proof. cbv zeta; vm_compute; repeat split. Qed.

(** src/scanner/tests/collection.rs:92 *)
Example scan_collection_block_mapping :
  let data := (bytes "'key1': 'value1'
'key2': 'value2'") in
  let expected := [Ok (Some (TStreamStart));
    Ok (Some (TBlockMappingStart));
    Ok (Some (TKey));
    Ok (Some (TScalar (Owned (bytes "key1")) SingleQuote));
    Ok (Some (TValue));
    Ok (Some (TScalar (Owned (bytes "value1")) SingleQuote));
    Ok (Some (TKey));
    Ok (Some (TScalar (Owned (bytes "key2")) SingleQuote));
    Ok (Some (TValue));
    Ok (Some (TScalar (Owned (bytes "value2")) SingleQuote));
    Ok (Some (TBlockEnd));
    Ok (Some (TStreamEnd));
    Ok None] in
  scans false data expected /\ scans true data expected.
Proof. cbv zeta; vm_compute; repeat split. Qed.

(** src/scanner/tests/collection.rs:115 *)
Example scan_collection_block_mapping_nested :
  let data := (bytes "
'one':
  'key': 'value'
  'and': 'again'
") in
  let expected := [Ok (Some (TStreamStart));
    Ok (Some (TBlockMappingStart));
    Ok (Some (TKey));
    Ok (Some (TScalar (Owned (bytes "one")) SingleQuote));
    Ok (Some (TValue));
    Ok (Some (TBlockMappingStart));
    Ok (Some (TKey));
    Ok (Some (TScalar (Owned (bytes "key")) SingleQuote));
    Ok (Some (TValue));
    Ok (Some (TScalar (Owned (bytes "value")) SingleQuote));
    Ok (Some (TKey));
    Ok (Some (TScalar (Owned (bytes "and")) SingleQuote));
    Ok (Some (TValue));
    Ok (Some (TScalar (Owned (bytes "again")) SingleQuote));
    Ok (Some (TBlockEnd));
    Ok (Some (TBlockEnd));
    Ok (Some (TStreamEnd));
    Ok None] in
  scans false data expected /\ scans true data expected.
Proof. cbv zeta; vm_compute; repeat split. Qed.

(** src/scanner/tests/collection.rs:147 *)
Example scan_collection_block_sequence_no_indent :
  let data := (bytes "
'one':
- 'two'


- 'three'
") in
  let expected := [Ok (Some (TStreamStart));
    Ok (Some (TBlockMappingStart));
    Ok (Some (TKey));
    Ok (Some (TScalar (Owned (bytes "one")) SingleQuote));
    Ok (Some (TValue));
    Ok (Some (TBlockSequenceStart));
    Ok (Some (TBlockEntry));
    Ok (Some (TScalar (Owned (bytes "two")) SingleQuote));
    Ok (Some (TBlockEntry));
    Ok (Some (TScalar (Owned (bytes "three")) SingleQuote));
    Ok (Some (TBlockEnd));
    Ok (Some (TBlockEnd));
    Ok (Some (TStreamEnd));
    Ok None] in
  scans false data expected /\ scans true data expected.
Proof. cbv zeta; vm_compute; repeat split. Qed.

(** src/scanner/tests/collection.rs:177 *)
Example scan_collection_block_sequence_no_indent_nested :
  let data := (bytes "
'one':
  'two':
  - 'three'
  'four':
  - 'five'
'six':
- 'seven'
") in
  let expected := [Ok (Some (TStreamStart));
    Ok (Some (TBlockMappingStart));
    Ok (Some (TKey));
    Ok (Some (TScalar (Owned (bytes "one")) SingleQuote));
    Ok (Some (TValue));
    Ok (Some (TBlockMappingStart));
    Ok (Some (TKey));
    Ok (Some (TScalar (Owned (bytes "two")) SingleQuote));
    Ok (Some (TValue));
    Ok (Some (TBlockSequenceStart));
    Ok (Some (TBlockEntry));
    Ok (Some (TScalar (Owned (bytes "three")) SingleQuote));
    Ok (Some (TBlockEnd));
    Ok (Some (TKey));
    Ok (Some (TScalar (Owned (bytes "four")) SingleQuote));
    Ok (Some (TValue));
    Ok (Some (TBlockSequenceStart));
    Ok (Some (TBlockEntry));
    Ok (Some (TScalar (Owned (bytes "five")) SingleQuote));
    Ok (Some (TBlockEnd));
    Ok (Some (TBlockEnd));
    Ok (Some (TKey));
    Ok (Some (TScalar (Owned (bytes "six")) SingleQuote));
    Ok (Some (TValue));
    Ok (Some (TBlockSequenceStart));
    Ok (Some (TBlockEntry));
    Ok (Some (TScalar (Owned (bytes "seven")) SingleQuote));
    Ok (Some (TBlockEnd));
    Ok (Some (TBlockEnd));
    Ok (Some (TStreamEnd));
    Ok None] in
  scans false data expected /\ scans true data expected.
Proof. cbv zeta; vm_compute; repeat split. Qed.

(** src/scanner/tests/collection.rs:228 *)
Example scan_collection_flow_mapping_indicators :
  let data := (bytes "{}") in
  let expected := [Ok (Some (TStreamStart));
    Ok (Some (TFlowMappingStart));
    Ok (Some (TFlowMappingEnd));
    Ok (Some (TStreamEnd));
    Ok None] in
  scans false data expected /\ scans true data expected.
Proof. cbv zeta; vm_compute; repeat split. Qed.

(** src/scanner/tests/collection.rs:247 *)
Example scan_collection_flow_sequence_indicators :
  let data := (bytes "[]") in
  let expected := [Ok (Some (TStreamStart));
    Ok (Some (TFlowSequenceStart));
    Ok (Some (TFlowSequenceEnd));
    Ok (Some (TStreamEnd));
    Ok None] in
  scans false data expected /\ scans true data expected.
Proof. cbv zeta; vm_compute; repeat split. Qed.

(** src/scanner/tests/collection.rs:264 *)
Example scan_collection_flow_mapping :
  let data := (bytes "{'a key': 'a value','another key': 'another value'}") in
  let expected := [Ok (Some (TStreamStart));
    Ok (Some (TFlowMappingStart));
    Ok (Some (TKey));
    Ok (Some (TScalar (Owned (bytes "a key")) SingleQuote));
    Ok (Some (TValue));
    Ok (Some (TScalar (Owned (bytes "a value")) SingleQuote));
    Ok (Some (TFlowEntry));
    Ok (Some (TKey));
    Ok (Some (TScalar (Owned (bytes "another key")) SingleQuote));
    Ok (Some (TValue));
    Ok (Some (TScalar (Owned (bytes "another value")) SingleQuote));
    Ok (Some (TFlowMappingEnd));
    Ok (Some (TStreamEnd));
    Ok None] in
  scans false data expected /\ scans true data expected.
Proof. cbv zeta; vm_compute; repeat split. Qed.

(** src/scanner/tests/collection.rs:288 *)
Example scan_collection_flow_sequence :
  let data := (bytes "['a key': 'a value','another key': 'another value']") in
  let expected := [Ok (Some (TStreamStart));
    Ok (Some (TFlowSequenceStart));
    Ok (Some (TKey));
    Ok (Some (TScalar (Owned (bytes "a key")) SingleQuote));
    Ok (Some (TValue));
    Ok (Some (TScalar (Owned (bytes "a value")) SingleQuote));
    Ok (Some (TFlowEntry));
    Ok (Some (TKey));
    Ok (Some (TScalar (Owned (bytes "another key")) SingleQuote));
    Ok (Some (TValue));
    Ok (Some (TScalar (Owned (bytes "another value")) SingleQuote));
    Ok (Some (TFlowSequenceEnd));
    Ok (Some (TStreamEnd));
    Ok None] in
  scans false data expected /\ scans true data expected.
Proof. cbv zeta; vm_compute; repeat split. Qed.

(** src/scanner/tests/collection.rs:312 *)
Example scan_collection_flow_sequence_plain :
  let data := (bytes "[a key: a value,another key: another value]") in
  let expected := [Ok (Some (TStreamStart));
    Ok (Some (TFlowSequenceStart));
    Ok (Some (TKey));
    Ok (Some (TScalar (Owned (bytes "a key")) Plain));
    Ok (Some (TValue));
    Ok (Some (TScalar (Owned (bytes "a value")) Plain));
    Ok (Some (TFlowEntry));
    Ok (Some (TKey));
    Ok (Some (TScalar (Owned (bytes "another key")) Plain));
    Ok (Some (TValue));
    Ok (Some (TScalar (Owned (bytes "another value")) Plain));
    Ok (Some (TFlowSequenceEnd));
    Ok (Some (TStreamEnd));
    Ok None] in
  scans false data expected /\ scans true data expected.
Proof. cbv zeta; vm_compute; repeat split. Qed.

(** src/scanner/tests/collection.rs:336 *)
Example scan_collection_flow_sequence_plain_abnormal :
  let data := (bytes "[-: -123,not# a comment  :  (-%!&*@`|>+-)]") in
  let expected := [Ok (Some (TStreamStart));
    Ok (Some (TFlowSequenceStart));
    Ok (Some (TKey));
    Ok (Some (TScalar (Owned (bytes "-")) Plain));
    Ok (Some (TValue));
    Ok (Some (TScalar (Owned (bytes "-123")) Plain));
    Ok (Some (TFlowEntry));
    Ok (Some (TKey));
    Ok (Some (TScalar (Owned (bytes "not# a comment")) Plain));
    Ok (Some (TValue));
    Ok (Some (TScalar (Owned (bytes "(-%!&*@`|>+-)")) Plain));
    Ok (Some (TFlowSequenceEnd));
    Ok (Some (TStreamEnd));
    Ok None] in
  scans false data expected /\ scans true data expected.
Proof. cbv zeta; vm_compute; repeat split. Qed.

(** src/scanner/tests/collection.rs:360 *)
Example scan_collection_flow_nested :
  let data := (bytes "[
            {'a map': 'of values'},
            {'inside': 'a sequence'},
            'a string',
            ['and', 'lists','of', 'strings'],
            {'wow': {'this': {'nesting': {'goes': ['deep', '!']}}}}
        ]") in
  let expected := [Ok (Some (TStreamStart));
    Ok (Some (TFlowSequenceStart));
    Ok (Some (TFlowMappingStart));
    Ok (Some (TKey));
    Ok (Some (TScalar (Owned (bytes "a map")) SingleQuote));
    Ok (Some (TValue));
    Ok (Some (TScalar (Owned (bytes "of values")) SingleQuote));
    Ok (Some (TFlowMappingEnd));
    Ok (Some (TFlowEntry));
    Ok (Some (TFlowMappingStart));
    Ok (Some (TKey));
    Ok (Some (TScalar (Owned (bytes "inside")) SingleQuote));
    Ok (Some (TValue));
    Ok (Some (TScalar (Owned (bytes "a sequence")) SingleQuote));
    Ok (Some (TFlowMappingEnd));
    Ok (Some (TFlowEntry));
    Ok (Some (TScalar (Owned (bytes "a string")) SingleQuote));
    Ok (Some (TFlowEntry));
    Ok (Some (TFlowSequenceStart));
    Ok (Some (TScalar (Owned (bytes "and")) SingleQuote));
    Ok (Some (TFlowEntry));
    Ok (Some (TScalar (Owned (bytes "lists")) SingleQuote));
    Ok (Some (TFlowEntry));
    Ok (Some (TScalar (Owned (bytes "of")) SingleQuote));
    Ok (Some (TFlowEntry));
    Ok (Some (TScalar (Owned (bytes "strings")) SingleQuote));
    Ok (Some (TFlowSequenceEnd));
    Ok (Some (TFlowEntry));
    Ok (Some (TFlowMappingStart));
    Ok (Some (TKey));
    Ok (Some (TScalar (Owned (bytes "wow")) SingleQuote));
    Ok (Some (TValue));
    Ok (Some (TFlowMappingStart));
    Ok (Some (TKey));
    Ok (Some (TScalar (Owned (bytes "this")) SingleQuote));
    Ok (Some (TValue));
    Ok (Some (TFlowMappingStart));
    Ok (Some (TKey));
    Ok (Some (TScalar (Owned (bytes "nesting")) SingleQuote));
    Ok (Some (TValue));
    Ok (Some (TFlowMappingStart));
    Ok (Some (TKey));
    Ok (Some (TScalar (Owned (bytes "goes")) SingleQuote));
    Ok (Some (TValue));
    Ok (Some (TFlowSequenceStart));
    Ok (Some (TScalar (Owned (bytes "deep")) SingleQuote));
    Ok (Some (TFlowEntry));
    Ok (Some (TScalar (Owned (bytes "!")) SingleQuote));
    Ok (Some (TFlowSequenceEnd));
    Ok (Some (TFlowMappingEnd));
    Ok (Some (TFlowMappingEnd));
    Ok (Some (TFlowMappingEnd));
    Ok (Some (TFlowMappingEnd));
    Ok (Some (TFlowSequenceEnd));
    Ok (Some (TStreamEnd));
    Ok None] in
  scans false data expected /\ scans true data expected.
Proof. cbv zeta; vm_compute; repeat split. Qed.

(** src/scanner/tests/complex.rs:17 *)
Example scan_complex_no_map_sequence_scalar :
  let data := (bytes "

---

%YAML           1.2                     # our document's version.
%TAG !          primary:namespace       # our doc's primary tag
%TAG !!         secondary/namespace:    # our doc's secondary tag
%TAG !named0!   named0:                 # A named tag

&ref
*ref



...

") in
  let expected := [Ok (Some (TStreamStart));
    Ok (Some (TDocumentStart));
    Ok (Some (TVersionDirective 1 2));
    Ok (Some (TTagDirective (Owned (bytes "!")) (Owned (bytes "primary:namespace"))));
    Ok (Some (TTagDirective (Owned (bytes "!!")) (Owned (bytes "secondary/namespace:"))));
    Ok (Some (TTagDirective (Owned (bytes "!named0!")) (Owned (bytes "named0:"))));
    Ok (Some (TAnchor (Owned (bytes "ref"))));
    Ok (Some (TAlias (Owned (bytes "ref"))));
    Ok (Some (TDocumentEnd));
    Ok (Some (TStreamEnd));
    Ok None] in
  scans false data expected /\ scans true data expected.
Proof. cbv zeta; vm_compute; repeat split. Qed.

(** src/scanner/tests/complex.rs:56 *)
Example scan_complex_no_map_sequence :
  let data := (bytes "

%YAML           1.2                     # our document's version.
%TAG !          primary:namespace       # our doc's primary tag
%TAG !!         secondary/namespace:    # our doc's secondary tag
%TAG !named0!   named0:                 # A named tag
---

!!str ""an anchor"": &ref !value 'some   
                                value'
!!str 'an alias': *ref

...

") in
  let expected := [Ok (Some (TStreamStart));
    Ok (Some (TVersionDirective 1 2));
    Ok (Some (TTagDirective (Owned (bytes "!")) (Owned (bytes "primary:namespace"))));
    Ok (Some (TTagDirective (Owned (bytes "!!")) (Owned (bytes "secondary/namespace:"))));
    Ok (Some (TTagDirective (Owned (bytes "!named0!")) (Owned (bytes "named0:"))));
    Ok (Some (TDocumentStart));
    Ok (Some (TBlockMappingStart));
    Ok (Some (TKey));
    Ok (Some (TTag (Owned (bytes "!!")) (Owned (bytes "str"))));
    Ok (Some (TScalar (Owned (bytes "an anchor")) DoubleQuote));
    Ok (Some (TValue));
    Ok (Some (TAnchor (Owned (bytes "ref"))));
    Ok (Some (TTag (Owned (bytes "!")) (Owned (bytes "value"))));
    Ok (Some (TScalar (Owned (bytes "some value")) SingleQuote));
    Ok (Some (TKey));
    Ok (Some (TTag (Owned (bytes "!!")) (Owned (bytes "str"))));
    Ok (Some (TScalar (Owned (bytes "an alias")) SingleQuote));
    Ok (Some (TValue));
    Ok (Some (TAlias (Owned (bytes "ref"))));
    Ok (Some (TBlockEnd));
    Ok (Some (TDocumentEnd));
    Ok (Some (TStreamEnd));
    Ok None] in
  scans false data expected /\ scans true data expected.
Proof. cbv zeta; vm_compute; repeat split. Qed.

(** src/scanner/tests/complex.rs:103 *)
Example scan_complex_plain :
  let data := (bytes "

---
- [
    key: value,
        indented: value,
        {an object: inside a sequence},
        [sequence inception!]
]
-   lets do it: &val as block,
    can we :
        build it:
            higher?: *val
    yes: we
    can: baby

                    ") in
  let expected := [Ok (Some (TStreamStart));
    Ok (Some (TDocumentStart));
    Ok (Some (TBlockSequenceStart));
    Ok (Some (TBlockEntry));
    Ok (Some (TFlowSequenceStart));
    Ok (Some (TKey));
    Ok (Some (TScalar (Owned (bytes "key")) Plain));
    Ok (Some (TValue));
    Ok (Some (TScalar (Owned (bytes "value")) Plain));
    Ok (Some (TFlowEntry));
    Ok (Some (TKey));
    Ok (Some (TScalar (Owned (bytes "indented")) Plain));
    Ok (Some (TValue));
    Ok (Some (TScalar (Owned (bytes "value")) Plain));
    Ok (Some (TFlowEntry));
    Ok (Some (TFlowMappingStart));
    Ok (Some (TKey));
    Ok (Some (TScalar (Owned (bytes "an object")) Plain));
    Ok (Some (TValue));
    Ok (Some (TScalar (Owned (bytes "inside a sequence")) Plain));
    Ok (Some (TFlowMappingEnd));
    Ok (Some (TFlowEntry));
    Ok (Some (TFlowSequenceStart));
    Ok (Some (TScalar (Owned (bytes "sequence inception!")) Plain));
    Ok (Some (TFlowSequenceEnd));
    Ok (Some (TFlowSequenceEnd));
    Ok (Some (TBlockEntry));
    Ok (Some (TBlockMappingStart));
    Ok (Some (TKey));
    Ok (Some (TScalar (Owned (bytes "lets do it")) Plain));
    Ok (Some (TValue));
    Ok (Some (TAnchor (Owned (bytes "val"))));
    Ok (Some (TScalar (Owned (bytes "as block,")) Plain));
    Ok (Some (TKey));
    Ok (Some (TScalar (Owned (bytes "can we")) Plain));
    Ok (Some (TValue));
    Ok (Some (TBlockMappingStart));
    Ok (Some (TKey));
    Ok (Some (TScalar (Owned (bytes "build it")) Plain));
    Ok (Some (TValue));
    Ok (Some (TBlockMappingStart));
    Ok (Some (TKey));
    Ok (Some (TScalar (Owned (bytes "higher?")) Plain));
    Ok (Some (TValue));
    Ok (Some (TAlias (Owned (bytes "val"))));
    Ok (Some (TBlockEnd));
    Ok (Some (TBlockEnd));
    Ok (Some (TKey));
    Ok (Some (TScalar (Owned (bytes "yes")) Plain));
    Ok (Some (TValue));
    Ok (Some (TScalar (Owned (bytes "we")) Plain));
    Ok (Some (TKey));
    Ok (Some (TScalar (Owned (bytes "can")) Plain));
    Ok (Some (TValue));
    Ok (Some (TScalar (Owned (bytes "baby")) Plain));
    Ok (Some (TBlockEnd));
    Ok (Some (TBlockEnd));
    Ok (Some (TStreamEnd));
    Ok None] in
  scans false data expected /\ scans true data expected.
Proof. cbv zeta; vm_compute; repeat split. Qed.

(** src/scanner/tests/complex.rs:191 *)
Example scan_complex_zero_indent_multilevel_coalesce :
  let data := (bytes "
Objs:
- UnitConfigName: Enemy_Lizalfos_Dark
  HashId: 0x43ef248b
- UnitConfigName: Item_Fish_21
  HashId: 0x453cc5d0 # Last Ok
Rails: # Error at the beginning of this line
- Blah: SomeRail
  HashId: 0x24f8f8f8
") in
  let expected := [Ok (Some (TStreamStart));
    Ok (Some (TBlockMappingStart));
    Ok (Some (TKey));
    Ok (Some (TScalar (Owned (bytes "Objs")) Plain));
    Ok (Some (TValue));
    Ok (Some (TBlockSequenceStart));
    Ok (Some (TBlockEntry));
    Ok (Some (TBlockMappingStart));
    Ok (Some (TKey));
    Ok (Some (TScalar (Owned (bytes "UnitConfigName")) Plain));
    Ok (Some (TValue));
    Ok (Some (TScalar (Owned (bytes "Enemy_Lizalfos_Dark")) Plain));
    Ok (Some (TKey));
    Ok (Some (TScalar (Owned (bytes "HashId")) Plain));
    Ok (Some (TValue));
    Ok (Some (TScalar (Owned (bytes "0x43ef248b")) Plain));
    Ok (Some (TBlockEnd));
    Ok (Some (TBlockEntry));
    Ok (Some (TBlockMappingStart));
    Ok (Some (TKey));
    Ok (Some (TScalar (Owned (bytes "UnitConfigName")) Plain));
    Ok (Some (TValue));
    Ok (Some (TScalar (Owned (bytes "Item_Fish_21")) Plain));
    Ok (Some (TKey));
    Ok (Some (TScalar (Owned (bytes "HashId")) Plain));
    Ok (Some (TValue));
    Ok (Some (TScalar (Owned (bytes "0x453cc5d0")) Plain));
    Ok (Some (TBlockEnd));
    Ok (Some (TBlockEnd));
    Ok (Some (TKey));
    Ok (Some (TScalar (Owned (bytes "Rails")) Plain));
    Ok (Some (TValue));
    Ok (Some (TBlockSequenceStart));
    Ok (Some (TBlockEntry));
    Ok (Some (TBlockMappingStart));
    Ok (Some (TKey));
    Ok (Some (TScalar (Owned (bytes "Blah")) Plain));
    Ok (Some (TValue));
    Ok (Some (TScalar (Owned (bytes "SomeRail")) Plain));
    Ok (Some (TKey));
    Ok (Some (TScalar (Owned (bytes "HashId")) Plain));
    Ok (Some (TValue));
    Ok (Some (TScalar (Owned (bytes "0x24f8f8f8")) Plain));
    Ok (Some (TBlockEnd));
    Ok (Some (TBlockEnd));
    Ok (Some (TBlockEnd));
    Ok (Some (TStreamEnd));
    Ok None] in
  scans false data expected /\ scans true data expected.
Proof. cbv zeta; vm_compute; repeat split. Qed.

(** src/scanner/tests/complex.rs:261 *)
Example scan_complex_zero_indent_multilevel :
  let data := (bytes "
Z1:
- Z2:
  - N1:
      - N2:
          - Z3:
            - end
") in
  let expected := [Ok (Some (TStreamStart));
    Ok (Some (TBlockMappingStart));
    Ok (Some (TKey));
    Ok (Some (TScalar (Owned (bytes "Z1")) Plain));
    Ok (Some (TValue));
    Ok (Some (TBlockSequenceStart));
    Ok (Some (TBlockEntry));
    Ok (Some (TBlockMappingStart));
    Ok (Some (TKey));
    Ok (Some (TScalar (Owned (bytes "Z2")) Plain));
    Ok (Some (TValue));
    Ok (Some (TBlockSequenceStart));
    Ok (Some (TBlockEntry));
    Ok (Some (TBlockMappingStart));
    Ok (Some (TKey));
    Ok (Some (TScalar (Owned (bytes "N1")) Plain));
    Ok (Some (TValue));
    Ok (Some (TBlockSequenceStart));
    Ok (Some (TBlockEntry));
    Ok (Some (TBlockMappingStart));
    Ok (Some (TKey));
    Ok (Some (TScalar (Owned (bytes "N2")) Plain));
    Ok (Some (TValue));
    Ok (Some (TBlockSequenceStart));
    Ok (Some (TBlockEntry));
    Ok (Some (TBlockMappingStart));
    Ok (Some (TKey));
    Ok (Some (TScalar (Owned (bytes "Z3")) Plain));
    Ok (Some (TValue));
    Ok (Some (TBlockSequenceStart));
    Ok (Some (TBlockEntry));
    Ok (Some (TScalar (Owned (bytes "end")) Plain));
    Ok (Some (TBlockEnd));
    Ok (Some (TBlockEnd));
    Ok (Some (TBlockEnd));
    Ok (Some (TBlockEnd));
    Ok (Some (TBlockEnd));
    Ok (Some (TBlockEnd));
    Ok (Some (TBlockEnd));
    Ok (Some (TBlockEnd));
    Ok (Some (TBlockEnd));
    Ok (Some (TBlockEnd));
    Ok (Some (TStreamEnd));
    Ok None] in
  scans false data expected /\ scans true data expected.
Proof. cbv zeta; vm_compute; repeat split. Qed.

(** src/scanner/scalar/*.rs tests: the token and the amount read. *)
Definition leaf (r : sres (maybe_token * nat * stats)) : sres (token * nat) :=
  let* '(m, n, _) := r in let* t := into_token m in Ok (own_token t, n).
Definition block0 : context :=
  indent_increment cxt0 0 0 true false.
Definition flow1 : context := flow_increment cxt0.
Definition reads (expected : token) (amt : option nat) (r : sres (token * nat)) : bool :=
  match r with
  | Ok (t, n) =>
      match expected, t with
      | TScalar (Owned a) k, TScalar (Owned b) k' =>
          str_eqb a b &&
          match k, k' with
          | Plain, Plain | SingleQuote, SingleQuote | DoubleQuote, DoubleQuote
          | Literal, Literal | Folded, Folded => true
          | _, _ => false
          end
      | _, _ => false
      end &&
      match amt with Some a => Nat.eqb a n | None => true end
  | _ => false
  end.

(** src/scanner/scalar/block.rs:816 *)
Example block_literal_simple :
  forallb (fun data =>
    reads (TScalar (Owned (bytes "this is a simple block scalar")) Literal) None
      (leaf (scan_block_scalar (mkFlags false false) data stats0 block0 false)))
    [(bytes "|
  this is a simple block scalar")] = true.
Proof. vm_compute. reflexivity. Qed.

(** src/scanner/scalar/block.rs:816 *)
Example block_literal_simple_lazy :
  forallb (fun data =>
    reads (TScalar (Owned (bytes "this is a simple block scalar")) Literal) None
      (leaf (scan_block_scalar (mkFlags false true) data stats0 block0 false)))
    [(bytes "|
  this is a simple block scalar")] = true.
Proof. vm_compute. reflexivity. Qed.

(** src/scanner/scalar/block.rs:832 *)
Example block_literal_clip :
  forallb (fun data =>
    reads (TScalar (Owned (bytes "trailing lines...
")) Literal) None
      (leaf (scan_block_scalar (mkFlags false false) data stats0 block0 false)))
    [(bytes "|
  trailing lines...
 

")] = true.
Proof. vm_compute. reflexivity. Qed.

(** src/scanner/scalar/block.rs:832 *)
Example block_literal_clip_lazy :
  forallb (fun data =>
    reads (TScalar (Owned (bytes "trailing lines...
")) Literal) None
      (leaf (scan_block_scalar (mkFlags false true) data stats0 block0 false)))
    [(bytes "|
  trailing lines...
 

")] = true.
Proof. vm_compute. reflexivity. Qed.

(** src/scanner/scalar/block.rs:848 *)
Example block_literal_strip :
  forallb (fun data =>
    reads (TScalar (Owned (bytes "trailing lines...")) Literal) None
      (leaf (scan_block_scalar (mkFlags false false) data stats0 block0 false)))
    [(bytes "|-
  trailing lines...
 

")] = true.
Proof. vm_compute. reflexivity. Qed.

(** src/scanner/scalar/block.rs:848 *)
Example block_literal_strip_lazy :
  forallb (fun data =>
    reads (TScalar (Owned (bytes "trailing lines...")) Literal) None
      (leaf (scan_block_scalar (mkFlags false true) data stats0 block0 false)))
    [(bytes "|-
  trailing lines...
 

")] = true.
Proof. vm_compute. reflexivity. Qed.

(** src/scanner/scalar/block.rs:864 *)
Example block_literal_keep :
  forallb (fun data =>
    reads (TScalar (Owned (bytes "trailing lines...


")) Literal) None
      (leaf (scan_block_scalar (mkFlags false false) data stats0 block0 false)))
    [(bytes "|+
  trailing lines...
 

")] = true.
Proof. vm_compute. reflexivity. Qed.

(** src/scanner/scalar/block.rs:864 *)
Example block_literal_keep_lazy :
  forallb (fun data =>
    reads (TScalar (Owned (bytes "trailing lines...


")) Literal) None
      (leaf (scan_block_scalar (mkFlags false true) data stats0 block0 false)))
    [(bytes "|+
  trailing lines...
 

")] = true.
Proof. vm_compute. reflexivity. Qed.

(** src/scanner/scalar/block.rs:880 *)
Example block_literal_line_folding :
  forallb (fun data =>
    reads (TScalar (Owned (bytes "some folded
lines
here
")) Literal) None
      (leaf (scan_block_scalar (mkFlags false false) data stats0 block0 false)))
    [(bytes "|
  some folded
  lines
  here
")] = true.
Proof. vm_compute. reflexivity. Qed.

(** src/scanner/scalar/block.rs:880 *)
Example block_literal_line_folding_lazy :
  forallb (fun data =>
    reads (TScalar (Owned (bytes "some folded
lines
here
")) Literal) None
      (leaf (scan_block_scalar (mkFlags false true) data stats0 block0 false)))
    [(bytes "|
  some folded
  lines
  here
")] = true.
Proof. vm_compute. reflexivity. Qed.

(** src/scanner/scalar/block.rs:900 *)
Example block_literal_preceding_breaks :
  forallb (fun data =>
    reads (TScalar (Owned (bytes "

some folded
lines
here")) Literal) None
      (leaf (scan_block_scalar (mkFlags false false) data stats0 block0 false)))
    [(bytes "|-


  some folded
  lines
  here
")] = true.
Proof. vm_compute. reflexivity. Qed.

(** src/scanner/scalar/block.rs:900 *)
Example block_literal_preceding_breaks_lazy :
  forallb (fun data =>
    reads (TScalar (Owned (bytes "

some folded
lines
here")) Literal) None
      (leaf (scan_block_scalar (mkFlags false true) data stats0 block0 false)))
    [(bytes "|-


  some folded
  lines
  here
")] = true.
Proof. vm_compute. reflexivity. Qed.

(** src/scanner/scalar/block.rs:922 *)
Example block_literal_trailing_breaks :
  forallb (fun data =>
    reads (TScalar (Owned (bytes "some folded
lines
here


")) Literal) None
      (leaf (scan_block_scalar (mkFlags false false) data stats0 block0 false)))
    [(bytes "|+
  some folded
  lines
  here


")] = true.
Proof. vm_compute. reflexivity. Qed.

(** src/scanner/scalar/block.rs:922 *)
Example block_literal_trailing_breaks_lazy :
  forallb (fun data =>
    reads (TScalar (Owned (bytes "some folded
lines
here


")) Literal) None
      (leaf (scan_block_scalar (mkFlags false true) data stats0 block0 false)))
    [(bytes "|+
  some folded
  lines
  here


")] = true.
Proof. vm_compute. reflexivity. Qed.

(** src/scanner/scalar/block.rs:944 *)
Example block_literal_trailing_chars :
  forallb (fun data =>
    reads (TScalar (Owned (bytes "some folded
lines
here


")) Literal) None
      (leaf (scan_block_scalar (mkFlags false false) data stats0 block0 false)))
    [(bytes "|+
  some folded
  lines
  here


some.other.key: value")] = true.
Proof. vm_compute. reflexivity. Qed.

(** src/scanner/scalar/block.rs:944 *)
Example block_literal_trailing_chars_lazy :
  forallb (fun data =>
    reads (TScalar (Owned (bytes "some folded
lines
here


")) Literal) None
      (leaf (scan_block_scalar (mkFlags false true) data stats0 block0 false)))
    [(bytes "|+
  some folded
  lines
  here


some.other.key: value")] = true.
Proof. vm_compute. reflexivity. Qed.

(** src/scanner/scalar/block.rs:966 *)
Example block_literal_interior_breaks :
  forallb (fun data =>
    reads (TScalar (Owned (bytes "this

has

breaks")) Literal) None
      (leaf (scan_block_scalar (mkFlags false false) data stats0 block0 false)))
    [(bytes "|-
  this

  has

  breaks
")] = true.
Proof. vm_compute. reflexivity. Qed.

(** src/scanner/scalar/block.rs:966 *)
Example block_literal_interior_breaks_lazy :
  forallb (fun data =>
    reads (TScalar (Owned (bytes "this

has

breaks")) Literal) None
      (leaf (scan_block_scalar (mkFlags false true) data stats0 block0 false)))
    [(bytes "|-
  this

  has

  breaks
")] = true.
Proof. vm_compute. reflexivity. Qed.

(** src/scanner/scalar/block.rs:988 *)
Example block_literal_comment :
  forallb (fun data =>
    reads (TScalar (Owned (bytes "simple block scalar")) Literal) None
      (leaf (scan_block_scalar (mkFlags false false) data stats0 block0 false)))
    [(bytes "| # a comment here.
  simple block scalar")] = true.
Proof. vm_compute. reflexivity. Qed.

(** src/scanner/scalar/block.rs:988 *)
Example block_literal_comment_lazy :
  forallb (fun data =>
    reads (TScalar (Owned (bytes "simple block scalar")) Literal) None
      (leaf (scan_block_scalar (mkFlags false true) data stats0 block0 false)))
    [(bytes "| # a comment here.
  simple block scalar")] = true.
Proof. vm_compute. reflexivity. Qed.

(** src/scanner/scalar/block.rs:1006 *)
Example block_folded_simple :
  forallb (fun data =>
    reads (TScalar (Owned (bytes "this is a simple block scalar")) Folded) None
      (leaf (scan_block_scalar (mkFlags false false) data stats0 block0 true)))
    [(bytes ">
  this is a simple block scalar")] = true.
Proof. vm_compute. reflexivity. Qed.

(** src/scanner/scalar/block.rs:1006 *)
Example block_folded_simple_lazy :
  forallb (fun data =>
    reads (TScalar (Owned (bytes "this is a simple block scalar")) Folded) None
      (leaf (scan_block_scalar (mkFlags false true) data stats0 block0 true)))
    [(bytes ">
  this is a simple block scalar")] = true.
Proof. vm_compute. reflexivity. Qed.

(** src/scanner/scalar/block.rs:1022 *)
Example block_folded_clip :
  forallb (fun data =>
    reads (TScalar (Owned (bytes "trailing lines...
")) Folded) None
      (leaf (scan_block_scalar (mkFlags false false) data stats0 block0 true)))
    [(bytes ">
  trailing lines...
 

")] = true.
Proof. vm_compute. reflexivity. Qed.

(** src/scanner/scalar/block.rs:1022 *)
Example block_folded_clip_lazy :
  forallb (fun data =>
    reads (TScalar (Owned (bytes "trailing lines...
")) Folded) None
      (leaf (scan_block_scalar (mkFlags false true) data stats0 block0 true)))
    [(bytes ">
  trailing lines...
 

")] = true.
Proof. vm_compute. reflexivity. Qed.

(** src/scanner/scalar/block.rs:1038 *)
Example block_folded_strip :
  forallb (fun data =>
    reads (TScalar (Owned (bytes "trailing lines...")) Folded) None
      (leaf (scan_block_scalar (mkFlags false false) data stats0 block0 true)))
    [(bytes ">-
  trailing lines...
 

")] = true.
Proof. vm_compute. reflexivity. Qed.

(** src/scanner/scalar/block.rs:1038 *)
Example block_folded_strip_lazy :
  forallb (fun data =>
    reads (TScalar (Owned (bytes "trailing lines...")) Folded) None
      (leaf (scan_block_scalar (mkFlags false true) data stats0 block0 true)))
    [(bytes ">-
  trailing lines...
 

")] = true.
Proof. vm_compute. reflexivity. Qed.

(** src/scanner/scalar/block.rs:1054 *)
Example block_folded_keep :
  forallb (fun data =>
    reads (TScalar (Owned (bytes "trailing lines...


")) Folded) None
      (leaf (scan_block_scalar (mkFlags false false) data stats0 block0 true)))
    [(bytes ">+
  trailing lines...
 

")] = true.
Proof. vm_compute. reflexivity. Qed.

(** src/scanner/scalar/block.rs:1054 *)
Example block_folded_keep_lazy :
  forallb (fun data =>
    reads (TScalar (Owned (bytes "trailing lines...


")) Folded) None
      (leaf (scan_block_scalar (mkFlags false true) data stats0 block0 true)))
    [(bytes ">+
  trailing lines...
 

")] = true.
Proof. vm_compute. reflexivity. Qed.

(** src/scanner/scalar/block.rs:1070 *)
Example block_folded_line_folding :
  forallb (fun data =>
    reads (TScalar (Owned (bytes "some folded lines here
")) Folded) None
      (leaf (scan_block_scalar (mkFlags false false) data stats0 block0 true)))
    [(bytes ">
  some folded
  lines
  here
")] = true.
Proof. vm_compute. reflexivity. Qed.

(** src/scanner/scalar/block.rs:1070 *)
Example block_folded_line_folding_lazy :
  forallb (fun data =>
    reads (TScalar (Owned (bytes "some folded lines here
")) Folded) None
      (leaf (scan_block_scalar (mkFlags false true) data stats0 block0 true)))
    [(bytes ">
  some folded
  lines
  here
")] = true.
Proof. vm_compute. reflexivity. Qed.

(** src/scanner/scalar/block.rs:1090 *)
Example block_folded_preceding_breaks :
  forallb (fun data =>
    reads (TScalar (Owned (bytes "

some folded lines here")) Folded) None
      (leaf (scan_block_scalar (mkFlags false false) data stats0 block0 true)))
    [(bytes ">-


  some folded
  lines
  here
")] = true.
Proof. vm_compute. reflexivity. Qed.

(** src/scanner/scalar/block.rs:1090 *)
Example block_folded_preceding_breaks_lazy :
  forallb (fun data =>
    reads (TScalar (Owned (bytes "

some folded lines here")) Folded) None
      (leaf (scan_block_scalar (mkFlags false true) data stats0 block0 true)))
    [(bytes ">-


  some folded
  lines
  here
")] = true.
Proof. vm_compute. reflexivity. Qed.

(** src/scanner/scalar/block.rs:1112 *)
Example block_folded_trailing_breaks :
  forallb (fun data =>
    reads (TScalar (Owned (bytes "some folded lines here


")) Folded) None
      (leaf (scan_block_scalar (mkFlags false false) data stats0 block0 true)))
    [(bytes ">+
  some folded
  lines
  here


")] = true.
Proof. vm_compute. reflexivity. Qed.

(** src/scanner/scalar/block.rs:1112 *)
Example block_folded_trailing_breaks_lazy :
  forallb (fun data =>
    reads (TScalar (Owned (bytes "some folded lines here


")) Folded) None
      (leaf (scan_block_scalar (mkFlags false true) data stats0 block0 true)))
    [(bytes ">+
  some folded
  lines
  here


")] = true.
Proof. vm_compute. reflexivity. Qed.

(** src/scanner/scalar/block.rs:1134 *)
Example block_folded_trailing_chars :
  forallb (fun data =>
    reads (TScalar (Owned (bytes "some folded lines here


")) Folded) None
      (leaf (scan_block_scalar (mkFlags false false) data stats0 block0 true)))
    [(bytes ">+
  some folded
  lines
  here


some.other.key: value")] = true.
Proof. vm_compute. reflexivity. Qed.

(** src/scanner/scalar/block.rs:1134 *)
Example block_folded_trailing_chars_lazy :
  forallb (fun data =>
    reads (TScalar (Owned (bytes "some folded lines here


")) Folded) None
      (leaf (scan_block_scalar (mkFlags false true) data stats0 block0 true)))
    [(bytes ">+
  some folded
  lines
  here


some.other.key: value")] = true.
Proof. vm_compute. reflexivity. Qed.

(** src/scanner/scalar/block.rs:1156 *)
Example block_folded_interior_breaks :
  forallb (fun data =>
    reads (TScalar (Owned (bytes "this
has
breaks")) Folded) None
      (leaf (scan_block_scalar (mkFlags false false) data stats0 block0 true)))
    [(bytes ">-
  this

  has

  breaks
")] = true.
Proof. vm_compute. reflexivity. Qed.

(** src/scanner/scalar/block.rs:1156 *)
Example block_folded_interior_breaks_lazy :
  forallb (fun data =>
    reads (TScalar (Owned (bytes "this
has
breaks")) Folded) None
      (leaf (scan_block_scalar (mkFlags false true) data stats0 block0 true)))
    [(bytes ">-
  this

  has

  breaks
")] = true.
Proof. vm_compute. reflexivity. Qed.

(** src/scanner/scalar/block.rs:1178 *)
Example block_folded_comment :
  forallb (fun data =>
    reads (TScalar (Owned (bytes "simple block scalar")) Folded) None
      (leaf (scan_block_scalar (mkFlags false false) data stats0 block0 true)))
    [(bytes "> # a comment here.
  simple block scalar")] = true.
Proof. vm_compute. reflexivity. Qed.

(** src/scanner/scalar/block.rs:1178 *)
Example block_folded_comment_lazy :
  forallb (fun data =>
    reads (TScalar (Owned (bytes "simple block scalar")) Folded) None
      (leaf (scan_block_scalar (mkFlags false true) data stats0 block0 true)))
    [(bytes "> # a comment here.
  simple block scalar")] = true.
Proof. vm_compute. reflexivity. Qed.

(** src/scanner/scalar/plain.rs:501 *)
Example plain_end_on_doc :
  forallb (fun data =>
    reads (TScalar (Owned (bytes "hello")) Plain) (Some 5%nat)
      (leaf (scan_plain_scalar (mkFlags false false) data stats0 block0)))
    [(bytes "hello
---
"); (bytes "hello
... ")] = true.
Proof. vm_compute. reflexivity. Qed.

(** src/scanner/scalar/plain.rs:501 *)
Example plain_end_on_doc_lazy :
  forallb (fun data =>
    reads (TScalar (Owned (bytes "hello")) Plain) (Some 5%nat)
      (leaf (scan_plain_scalar (mkFlags false true) data stats0 block0)))
    [(bytes "hello
---
"); (bytes "hello
... ")] = true.
Proof. vm_compute. reflexivity. Qed.

(** src/scanner/scalar/plain.rs:523 *)
Example plain_end_on_comment :
  forallb (fun data =>
    reads (TScalar (Owned (bytes "hello")) Plain) (Some 5%nat)
      (leaf (scan_plain_scalar (mkFlags false false) data stats0 block0)))
    [(bytes "hello #"); (bytes "hello
#")] = true.
Proof. vm_compute. reflexivity. Qed.

(** src/scanner/scalar/plain.rs:523 *)
Example plain_end_on_comment_lazy :
  forallb (fun data =>
    reads (TScalar (Owned (bytes "hello")) Plain) (Some 5%nat)
      (leaf (scan_plain_scalar (mkFlags false true) data stats0 block0)))
    [(bytes "hello #"); (bytes "hello
#")] = true.
Proof. vm_compute. reflexivity. Qed.

(** src/scanner/scalar/plain.rs:545 *)
Example plain_empty :
  forallb (fun data =>
    reads (TScalar (Owned (bytes "")) Plain) (Some 0%nat)
      (leaf (scan_plain_scalar (mkFlags false false) data stats0 block0)))
    [(bytes "# a comment")] = true.
Proof. vm_compute. reflexivity. Qed.

(** src/scanner/scalar/plain.rs:545 *)
Example plain_empty_lazy :
  forallb (fun data =>
    reads (TScalar (Owned (bytes "")) Plain) (Some 0%nat)
      (leaf (scan_plain_scalar (mkFlags false true) data stats0 block0)))
    [(bytes "# a comment")] = true.
Proof. vm_compute. reflexivity. Qed.

(** src/scanner/scalar/plain.rs:565 *)
Example plain_block_simple :
  forallb (fun data =>
    reads (TScalar (Owned (bytes "hello")) Plain) (Some (List.length data))
      (leaf (scan_plain_scalar (mkFlags false false) data stats0 block0)))
    [(bytes "hello")] = true.
Proof. vm_compute. reflexivity. Qed.

(** src/scanner/scalar/plain.rs:565 *)
Example plain_block_simple_lazy :
  forallb (fun data =>
    reads (TScalar (Owned (bytes "hello")) Plain) (Some (List.length data))
      (leaf (scan_plain_scalar (mkFlags false true) data stats0 block0)))
    [(bytes "hello")] = true.
Proof. vm_compute. reflexivity. Qed.

(** src/scanner/scalar/plain.rs:583 *)
Example plain_block_simple_key :
  forallb (fun data =>
    reads (TScalar (Owned (bytes "hello, world!")) Plain) (Some 13%nat)
      (leaf (scan_plain_scalar (mkFlags false false) data stats0 block0)))
    [(bytes "hello, world!: ")] = true.
Proof. vm_compute. reflexivity. Qed.

(** src/scanner/scalar/plain.rs:583 *)
Example plain_block_simple_key_lazy :
  forallb (fun data =>
    reads (TScalar (Owned (bytes "hello, world!")) Plain) (Some 13%nat)
      (leaf (scan_plain_scalar (mkFlags false true) data stats0 block0)))
    [(bytes "hello, world!: ")] = true.
Proof. vm_compute. reflexivity. Qed.

(** src/scanner/scalar/plain.rs:601 *)
Example plain_block_multi_line :
  forallb (fun data =>
    reads (TScalar (Owned (bytes "hello this is a multi-line scalar")) Plain) None
      (leaf (scan_plain_scalar (mkFlags false false) data stats0 block0)))
    [(bytes "hello
 this
 is
 a
 multi-line
 scalar
")] = true.
Proof. vm_compute. reflexivity. Qed.

(** src/scanner/scalar/plain.rs:601 *)
Example plain_block_multi_line_lazy :
  forallb (fun data =>
    reads (TScalar (Owned (bytes "hello this is a multi-line scalar")) Plain) None
      (leaf (scan_plain_scalar (mkFlags false true) data stats0 block0)))
    [(bytes "hello
 this
 is
 a
 multi-line
 scalar
")] = true.
Proof. vm_compute. reflexivity. Qed.

(** src/scanner/scalar/plain.rs:625 *)
Example plain_block_multi_line_breaks :
  forallb (fun data =>
    reads (TScalar (Owned (bytes "this is

a scalar
with line#breaks")) Plain) None
      (leaf (scan_plain_scalar (mkFlags false false) data stats0 block0)))
    [(bytes "this
 is


 a
 scalar

 with
 line#breaks

")] = true.
Proof. vm_compute. reflexivity. Qed.

(** src/scanner/scalar/plain.rs:625 *)
Example plain_block_multi_line_breaks_lazy :
  forallb (fun data =>
    reads (TScalar (Owned (bytes "this is

a scalar
with line#breaks")) Plain) None
      (leaf (scan_plain_scalar (mkFlags false true) data stats0 block0)))
    [(bytes "this
 is


 a
 scalar

 with
 line#breaks

")] = true.
Proof. vm_compute. reflexivity. Qed.

(** src/scanner/scalar/plain.rs:653 *)
Example plain_block_trailing_whitespace :
  forallb (fun data =>
    reads (TScalar (Owned (bytes "hello")) Plain) (Some 5%nat)
      (leaf (scan_plain_scalar (mkFlags false false) data stats0 block0)))
    [(bytes "hello       ")] = true.
Proof. vm_compute. reflexivity. Qed.

(** src/scanner/scalar/plain.rs:653 *)
Example plain_block_trailing_whitespace_lazy :
  forallb (fun data =>
    reads (TScalar (Owned (bytes "hello")) Plain) (Some 5%nat)
      (leaf (scan_plain_scalar (mkFlags false true) data stats0 block0)))
    [(bytes "hello       ")] = true.
Proof. vm_compute. reflexivity. Qed.

(** src/scanner/scalar/plain.rs:673 *)
Example plain_flow_simple :
  forallb (fun data =>
    reads (TScalar (Owned (bytes "hello")) Plain) (Some (List.length data))
      (leaf (scan_plain_scalar (mkFlags false false) data stats0 flow1)))
    [(bytes "hello")] = true.
Proof. vm_compute. reflexivity. Qed.

(** src/scanner/scalar/plain.rs:673 *)
Example plain_flow_simple_lazy :
  forallb (fun data =>
    reads (TScalar (Owned (bytes "hello")) Plain) (Some (List.length data))
      (leaf (scan_plain_scalar (mkFlags false true) data stats0 flow1)))
    [(bytes "hello")] = true.
Proof. vm_compute. reflexivity. Qed.

(** src/scanner/scalar/plain.rs:691 *)
Example plain_flow_end_on_indicator :
  forallb (fun data =>
    reads (TScalar (Owned (bytes "hello")) Plain) (Some 5%nat)
      (leaf (scan_plain_scalar (mkFlags false false) data stats0 flow1)))
    [(bytes "hello: "); (bytes "hello,"); (bytes "hello["); (bytes "hello]"); (bytes "hello{"); (bytes "hello}")] = true.
Proof. vm_compute. reflexivity. Qed.

(** src/scanner/scalar/plain.rs:691 *)
Example plain_flow_end_on_indicator_lazy :
  forallb (fun data =>
    reads (TScalar (Owned (bytes "hello")) Plain) (Some 5%nat)
      (leaf (scan_plain_scalar (mkFlags false true) data stats0 flow1)))
    [(bytes "hello: "); (bytes "hello,"); (bytes "hello["); (bytes "hello]"); (bytes "hello{"); (bytes "hello}")] = true.
Proof. vm_compute. reflexivity. Qed.

(** src/scanner/scalar/plain.rs:713 *)
Example plain_flow_multi_line :
  forallb (fun data =>
    reads (TScalar (Owned (bytes "hello this is a multi-line string!")) Plain) (Some (List.length data))
      (leaf (scan_plain_scalar (mkFlags false false) data stats0 flow1)))
    [(bytes "hello
this
is
a
multi-line
string!")] = true.
Proof. vm_compute. reflexivity. Qed.

(** src/scanner/scalar/plain.rs:713 *)
Example plain_flow_multi_line_lazy :
  forallb (fun data =>
    reads (TScalar (Owned (bytes "hello this is a multi-line string!")) Plain) (Some (List.length data))
      (leaf (scan_plain_scalar (mkFlags false true) data stats0 flow1)))
    [(bytes "hello
this
is
a
multi-line
string!")] = true.
Proof. vm_compute. reflexivity. Qed.

(** src/scanner/scalar/plain.rs:736 *)
Example plain_flow_multi_line_breaks :
  forallb (fun data =>
    reads (TScalar (Owned (bytes "hello this
big
string
has
line
breaks")) Plain) (Some 66%nat)
      (leaf (scan_plain_scalar (mkFlags false false) data stats0 flow1)))
    [(bytes "hello
        this

big

    string

        has

    line

breaks
        ")] = true.
Proof. vm_compute. reflexivity. Qed.

(** src/scanner/scalar/plain.rs:736 *)
Example plain_flow_multi_line_breaks_lazy :
  forallb (fun data =>
    reads (TScalar (Owned (bytes "hello this
big
string
has
line
breaks")) Plain) (Some 66%nat)
      (leaf (scan_plain_scalar (mkFlags false true) data stats0 flow1)))
    [(bytes "hello
        this

big

    string

        has

    line

breaks
        ")] = true.
Proof. vm_compute. reflexivity. Qed.

(** src/scanner/scalar/plain.rs:766 *)
Example plain_flow_trailing_whitespace_key :
  forallb (fun data =>
    reads (TScalar (Owned (bytes "hello")) Plain) (Some 5%nat)
      (leaf (scan_plain_scalar (mkFlags false false) data stats0 flow1)))
    [(bytes "hello   : ")] = true.
Proof. vm_compute. reflexivity. Qed.

(** src/scanner/scalar/plain.rs:766 *)
Example plain_flow_trailing_whitespace_key_lazy :
  forallb (fun data =>
    reads (TScalar (Owned (bytes "hello")) Plain) (Some 5%nat)
      (leaf (scan_plain_scalar (mkFlags false true) data stats0 flow1)))
    [(bytes "hello   : ")] = true.
Proof. vm_compute. reflexivity. Qed.

(** src/scanner/scalar/plain.rs:784 *)
Example plain_flow_trailing_whitespace :
  forallb (fun data =>
    reads (TScalar (Owned (bytes "hello")) Plain) (Some 5%nat)
      (leaf (scan_plain_scalar (mkFlags false false) data stats0 flow1)))
    [(bytes "hello   ")] = true.
Proof. vm_compute. reflexivity. Qed.

(** src/scanner/scalar/plain.rs:784 *)
Example plain_flow_trailing_whitespace_lazy :
  forallb (fun data =>
    reads (TScalar (Owned (bytes "hello")) Plain) (Some 5%nat)
      (leaf (scan_plain_scalar (mkFlags false true) data stats0 flow1)))
    [(bytes "hello   ")] = true.
Proof. vm_compute. reflexivity. Qed.

(** src/scanner/scalar/plain.rs:802 *)
Example plain_flow_trailing_breaks :
  forallb (fun data =>
    reads (TScalar (Owned (bytes "hello")) Plain) (Some 5%nat)
      (leaf (scan_plain_scalar (mkFlags false false) data stats0 flow1)))
    [(bytes "hello

        
        
        ")] = true.
Proof. vm_compute. reflexivity. Qed.

(** src/scanner/scalar/plain.rs:802 *)
Example plain_flow_trailing_breaks_lazy :
  forallb (fun data =>
    reads (TScalar (Owned (bytes "hello")) Plain) (Some 5%nat)
      (leaf (scan_plain_scalar (mkFlags false true) data stats0 flow1)))
    [(bytes "hello

        
        
        ")] = true.
Proof. vm_compute. reflexivity. Qed.

(** src/scanner/scalar/flow.rs:396 *)
Example flow_flow_single_empty :
  forallb (fun data =>
    reads (TScalar (Owned (bytes "")) SingleQuote) (Some 2%nat)
      (leaf (scan_flow_scalar (mkFlags false false) data stats0 true)))
    [(bytes "''")] = true.
Proof. vm_compute. reflexivity. Qed.

(** src/scanner/scalar/flow.rs:396 *)
Example flow_flow_single_empty_lazy :
  forallb (fun data =>
    reads (TScalar (Owned (bytes "")) SingleQuote) (Some 2%nat)
      (leaf (scan_flow_scalar (mkFlags false true) data stats0 true)))
    [(bytes "''")] = true.
Proof. vm_compute. reflexivity. Qed.

(** src/scanner/scalar/flow.rs:415 *)
Example flow_flow_single_simple :
  forallb (fun data =>
    reads (TScalar (Owned (bytes "hello world")) SingleQuote) (Some 13%nat)
      (leaf (scan_flow_scalar (mkFlags false false) data stats0 true)))
    [(bytes "'hello world'")] = true.
Proof. vm_compute. reflexivity. Qed.

(** src/scanner/scalar/flow.rs:415 *)
Example flow_flow_single_simple_lazy :
  forallb (fun data =>
    reads (TScalar (Owned (bytes "hello world")) SingleQuote) (Some 13%nat)
      (leaf (scan_flow_scalar (mkFlags false true) data stats0 true)))
    [(bytes "'hello world'")] = true.
Proof. vm_compute. reflexivity. Qed.

(** src/scanner/scalar/flow.rs:434 *)
Example flow_flow_single_fold_lines :
  forallb (fun data =>
    reads (TScalar (Owned (bytes "first second third fourth")) SingleQuote) None
      (leaf (scan_flow_scalar (mkFlags false false) data stats0 true)))
    [(bytes "'first
            second
            third
fourth'")] = true.
Proof. vm_compute. reflexivity. Qed.

(** src/scanner/scalar/flow.rs:434 *)
Example flow_flow_single_fold_lines_lazy :
  forallb (fun data =>
    reads (TScalar (Owned (bytes "first second third fourth")) SingleQuote) None
      (leaf (scan_flow_scalar (mkFlags false true) data stats0 true)))
    [(bytes "'first
            second
            third
fourth'")] = true.
Proof. vm_compute. reflexivity. Qed.

(** src/scanner/scalar/flow.rs:456 *)
Example flow_flow_single_trim_whitespace :
  forallb (fun data =>
    reads (TScalar (Owned (bytes "first second")) SingleQuote) None
      (leaf (scan_flow_scalar (mkFlags false false) data stats0 true)))
    [(bytes "'first     
            second'")] = true.
Proof. vm_compute. reflexivity. Qed.

(** src/scanner/scalar/flow.rs:456 *)
Example flow_flow_single_trim_whitespace_lazy :
  forallb (fun data =>
    reads (TScalar (Owned (bytes "first second")) SingleQuote) None
      (leaf (scan_flow_scalar (mkFlags false true) data stats0 true)))
    [(bytes "'first     
            second'")] = true.
Proof. vm_compute. reflexivity. Qed.

(** src/scanner/scalar/flow.rs:476 *)
Example flow_flow_single_fold_newline :
  forallb (fun data =>
    reads (TScalar (Owned (bytes "first second third
fourth")) SingleQuote) None
      (leaf (scan_flow_scalar (mkFlags false false) data stats0 true)))
    [(bytes "'first
            second
        third

            fourth'")] = true.
Proof. vm_compute. reflexivity. Qed.

(** src/scanner/scalar/flow.rs:476 *)
Example flow_flow_single_fold_newline_lazy :
  forallb (fun data =>
    reads (TScalar (Owned (bytes "first second third
fourth")) SingleQuote) None
      (leaf (scan_flow_scalar (mkFlags false true) data stats0 true)))
    [(bytes "'first
            second
        third

            fourth'")] = true.
Proof. vm_compute. reflexivity. Qed.

(** src/scanner/scalar/flow.rs:553 *)
Example flow_flow_double_empty :
  forallb (fun data =>
    reads (TScalar (Owned (bytes "")) DoubleQuote) (Some 2%nat)
      (leaf (scan_flow_scalar (mkFlags false false) data stats0 false)))
    [(bytes """""")] = true.
Proof. vm_compute. reflexivity. Qed.

(** src/scanner/scalar/flow.rs:553 *)
Example flow_flow_double_empty_lazy :
  forallb (fun data =>
    reads (TScalar (Owned (bytes "")) DoubleQuote) (Some 2%nat)
      (leaf (scan_flow_scalar (mkFlags false true) data stats0 false)))
    [(bytes """""")] = true.
Proof. vm_compute. reflexivity. Qed.

(** src/scanner/scalar/flow.rs:573 *)
Example flow_flow_double_simple :
  forallb (fun data =>
    reads (TScalar (Owned (bytes "hello world")) DoubleQuote) (Some 13%nat)
      (leaf (scan_flow_scalar (mkFlags false false) data stats0 false)))
    [(bytes """hello world""")] = true.
Proof. vm_compute. reflexivity. Qed.

(** src/scanner/scalar/flow.rs:573 *)
Example flow_flow_double_simple_lazy :
  forallb (fun data =>
    reads (TScalar (Owned (bytes "hello world")) DoubleQuote) (Some 13%nat)
      (leaf (scan_flow_scalar (mkFlags false true) data stats0 false)))
    [(bytes """hello world""")] = true.
Proof. vm_compute. reflexivity. Qed.

(** src/scanner/scalar/flow.rs:593 *)
Example flow_flow_double_unicode_escape :
  forallb (fun data =>
    reads (TScalar (Owned [104%N; 101%N; 108%N; 108%N; 111%N; 32%N; 206%N; 177%N; 32%N; 206%N; 169%N; 32%N; 227%N; 131%N; 131%N]) DoubleQuote) (Some (List.length data))
      (leaf (scan_flow_scalar (mkFlags false false) data stats0 false)))
    [(bytes """hello \U000003B1 \u03A9 \u30C3""")] = true.
Proof. vm_compute. reflexivity. Qed.

(** src/scanner/scalar/flow.rs:593 *)
Example flow_flow_double_unicode_escape_lazy :
  forallb (fun data =>
    reads (TScalar (Owned [104%N; 101%N; 108%N; 108%N; 111%N; 32%N; 206%N; 177%N; 32%N; 206%N; 169%N; 32%N; 227%N; 131%N; 131%N]) DoubleQuote) (Some (List.length data))
      (leaf (scan_flow_scalar (mkFlags false true) data stats0 false)))
    [(bytes """hello \U000003B1 \u03A9 \u30C3""")] = true.
Proof. vm_compute. reflexivity. Qed.

(** src/scanner/scalar/flow.rs:619 *)
Example flow_flow_double_fold_lines :
  forallb (fun data =>
    reads (TScalar (Owned (bytes "first second third fourth")) DoubleQuote) None
      (leaf (scan_flow_scalar (mkFlags false false) data stats0 false)))
    [(bytes """first
            second
            third
fourth""")] = true.
Proof. vm_compute. reflexivity. Qed.

(** src/scanner/scalar/flow.rs:619 *)
Example flow_flow_double_fold_lines_lazy :
  forallb (fun data =>
    reads (TScalar (Owned (bytes "first second third fourth")) DoubleQuote) None
      (leaf (scan_flow_scalar (mkFlags false true) data stats0 false)))
    [(bytes """first
            second
            third
fourth""")] = true.
Proof. vm_compute. reflexivity. Qed.

(** src/scanner/scalar/flow.rs:641 *)
Example flow_flow_double_fold_newline :
  forallb (fun data =>
    reads (TScalar (Owned (bytes "first second third
fourth")) DoubleQuote) None
      (leaf (scan_flow_scalar (mkFlags false false) data stats0 false)))
    [(bytes """first
            second
        third

            fourth""")] = true.
Proof. vm_compute. reflexivity. Qed.

(** src/scanner/scalar/flow.rs:641 *)
Example flow_flow_double_fold_newline_lazy :
  forallb (fun data =>
    reads (TScalar (Owned (bytes "first second third
fourth")) DoubleQuote) None
      (leaf (scan_flow_scalar (mkFlags false true) data stats0 false)))
    [(bytes """first
            second
        third

            fourth""")] = true.
Proof. vm_compute. reflexivity. Qed.

(** src/scanner/scalar/flow.rs:664 *)
Example flow_flow_double_trim_whitespace :
  forallb (fun data =>
    reads (TScalar (Owned (bytes "first second")) DoubleQuote) None
      (leaf (scan_flow_scalar (mkFlags false false) data stats0 false)))
    [(bytes """first        
            second""")] = true.
Proof. vm_compute. reflexivity. Qed.

(** src/scanner/scalar/flow.rs:664 *)
Example flow_flow_double_trim_whitespace_lazy :
  forallb (fun data =>
    reads (TScalar (Owned (bytes "first second")) DoubleQuote) None
      (leaf (scan_flow_scalar (mkFlags false true) data stats0 false)))
    [(bytes """first        
            second""")] = true.
Proof. vm_compute. reflexivity. Qed.

(** src/scanner/scalar/flow.rs:684 *)
Example flow_flow_double_escape_newline :
  forallb (fun data =>
    reads (TScalar (Owned (bytes "first  second third
fourth")) DoubleQuote) None
      (leaf (scan_flow_scalar (mkFlags false false) data stats0 false)))
    [(bytes """fi\
rst  \
            second
        third

            fourth""")] = true.
Proof. vm_compute. reflexivity. Qed.

(** src/scanner/scalar/flow.rs:684 *)
Example flow_flow_double_escape_newline_lazy :
  forallb (fun data =>
    reads (TScalar (Owned (bytes "first  second third
fourth")) DoubleQuote) None
      (leaf (scan_flow_scalar (mkFlags false true) data stats0 false)))
    [(bytes """fi\
rst  \
            second
        third

            fourth""")] = true.
Proof. vm_compute. reflexivity. Qed.

(** src/scanner/scalar/flow.rs:708 *)
Example flow_flow_double_escape_quote :
  forallb (fun data =>
    reads (TScalar (Owned (bytes "a quote "" here")) DoubleQuote) None
      (leaf (scan_flow_scalar (mkFlags false false) data stats0 false)))
    [(bytes """a quote \"" here""")] = true.
Proof. vm_compute. reflexivity. Qed.

(** src/scanner/scalar/flow.rs:708 *)
Example flow_flow_double_escape_quote_lazy :
  forallb (fun data =>
    reads (TScalar (Owned (bytes "a quote "" here")) DoubleQuote) None
      (leaf (scan_flow_scalar (mkFlags false true) data stats0 false)))
    [(bytes """a quote \"" here""")] = true.
Proof. vm_compute. reflexivity. Qed.

(** src/event/parser/mod.rs tests. *)
Definition own_data (d : event_data) : event_data :=
  let own_node n := mkNode (option_map own (n_anchor n))
                      (option_map (fun t => (own (fst t), own (snd t))) (n_tag n)) (n_kind n) in
  match d with
  | EvDocumentStart d i => EvDocumentStart (mkDirs (d_version d) (tags_to_owned (d_tags d))) i
  | EvAlias n => EvAlias (own n)
  | EvScalar n (Eager t k) => EvScalar (own_node n) (Eager (own t) k)
  | EvScalar n s => EvScalar (own_node n) s
  | EvMappingStart n => EvMappingStart (own_node n)
  | EvSequenceStart n => EvSequenceStart (own_node n)
  | d => d
  end.
Definition parses (ts : list token) (expected : list (pres (option event_data))) : Prop :=
  map (fun r => let* e := r in Ok (option_map (fun e => own_data (ev_data e)) e))
    (run_events list_source true (List.length expected) parser0
       (map (fun t => mkEntry (Tok t) 0) ts))
  = expected.

(** src/event/parser/mod.rs:1387 *)
Example parser_empty :
  parses [TStreamStart; TStreamEnd]
    [Ok (Some (EvStreamStart));
    Ok (Some (EvDocumentStart (mkDirs (1, 2)%N [(Owned (bytes "!"), Owned (bytes "!")); (Owned (bytes "!!"), Owned (bytes "tag:yaml.org,2002:"))]) true));
    Ok (Some (EvDocumentEnd true));
    Ok (Some (EvStreamEnd));
    Ok None].
Proof. vm_compute. reflexivity. Qed.

(** src/event/parser/mod.rs:1401 *)
Example parser_empty_document :
  parses [TStreamStart; TDocumentStart; TDocumentEnd; TStreamEnd]
    [Ok (Some (EvStreamStart));
    Ok (Some (EvDocumentStart (mkDirs (1, 2)%N [(Owned (bytes "!"), Owned (bytes "!")); (Owned (bytes "!!"), Owned (bytes "tag:yaml.org,2002:"))]) false));
    Ok (Some (EvDocumentEnd false));
    Ok (Some (EvStreamEnd));
    Ok None].
Proof. vm_compute. reflexivity. Qed.

(** src/event/parser/mod.rs:1420 *)
Example parser_simple_scalar :
  parses [TStreamStart; TScalar (Owned (bytes "Scalar only YAML document")) SingleQuote; TStreamEnd]
    [Ok (Some (EvStreamStart));
    Ok (Some (EvDocumentStart (mkDirs (1, 2)%N [(Owned (bytes "!"), Owned (bytes "!")); (Owned (bytes "!!"), Owned (bytes "tag:yaml.org,2002:"))]) true));
    Ok (Some (EvScalar (mkNode None None Root) (Eager (Owned (bytes "Scalar only YAML document")) SingleQuote)));
    Ok (Some (EvDocumentEnd true));
    Ok (Some (EvStreamEnd));
    Ok None].
Proof. vm_compute. reflexivity. Qed.

(** src/event/parser/mod.rs:1439 *)
Example parser_simple_sequence :
  parses [TStreamStart; TBlockSequenceStart; TBlockEntry; TScalar (Owned (bytes "Entry #1")) DoubleQuote; TBlockEntry; TScalar (Owned (bytes "Entry #2")) DoubleQuote; TBlockEnd; TStreamEnd]
    [Ok (Some (EvStreamStart));
    Ok (Some (EvDocumentStart (mkDirs (1, 2)%N [(Owned (bytes "!"), Owned (bytes "!")); (Owned (bytes "!!"), Owned (bytes "tag:yaml.org,2002:"))]) true));
    Ok (Some (EvSequenceStart (mkNode None None Root)));
    Ok (Some (EvScalar (mkNode None None Entry) (Eager (Owned (bytes "Entry #1")) DoubleQuote)));
    Ok (Some (EvScalar (mkNode None None Entry) (Eager (Owned (bytes "Entry #2")) DoubleQuote)));
    Ok (Some (EvSequenceEnd));
    Ok (Some (EvDocumentEnd true));
    Ok (Some (EvStreamEnd));
    Ok None].
Proof. vm_compute. reflexivity. Qed.

(** src/event/parser/mod.rs:1466 *)
Example parser_simple_mapping :
  parses [TStreamStart; TBlockMappingStart; TKey; TScalar (Owned (bytes "a key")) Plain; TValue; TScalar (Owned (bytes "a value")) Plain; TBlockEnd; TStreamEnd]
    [Ok (Some (EvStreamStart));
    Ok (Some (EvDocumentStart (mkDirs (1, 2)%N [(Owned (bytes "!"), Owned (bytes "!")); (Owned (bytes "!!"), Owned (bytes "tag:yaml.org,2002:"))]) true));
    Ok (Some (EvMappingStart (mkNode None None Root)));
    Ok (Some (EvScalar (mkNode None None Key) (Eager (Owned (bytes "a key")) Plain)));
    Ok (Some (EvScalar (mkNode None None Value) (Eager (Owned (bytes "a value")) Plain)));
    Ok (Some (EvMappingEnd));
    Ok (Some (EvDocumentEnd true));
    Ok (Some (EvStreamEnd));
    Ok None].
Proof. vm_compute. reflexivity. Qed.

(** src/event/parser/mod.rs:1493 *)
Example parser_tags :
  parses [TStreamStart; TTag (Owned (bytes "!!")) (Owned (bytes "map")); TBlockMappingStart; TKey; TTag (Owned (bytes "!!")) (Owned (bytes "str")); TScalar (Owned (bytes "a key")) Plain; TValue; TTag (Owned (bytes "!!")) (Owned (bytes "str")); TScalar (Owned (bytes "a value")) Plain; TBlockEnd; TStreamEnd]
    [Ok (Some (EvStreamStart));
    Ok (Some (EvDocumentStart (mkDirs (1, 2)%N [(Owned (bytes "!"), Owned (bytes "!")); (Owned (bytes "!!"), Owned (bytes "tag:yaml.org,2002:"))]) true));
    Ok (Some (EvMappingStart (mkNode None (Some (Owned (bytes "!!"), Owned (bytes "map"))) Root)));
    Ok (Some (EvScalar (mkNode None (Some (Owned (bytes "!!"), Owned (bytes "str"))) Key) (Eager (Owned (bytes "a key")) Plain)));
    Ok (Some (EvScalar (mkNode None (Some (Owned (bytes "!!"), Owned (bytes "str"))) Value) (Eager (Owned (bytes "a value")) Plain)));
    Ok (Some (EvMappingEnd));
    Ok (Some (EvDocumentEnd true));
    Ok (Some (EvStreamEnd));
    Ok None].
Proof. vm_compute. reflexivity. Qed.

(** src/event/parser/mod.rs:1523 *)
Example parser_scalar_tag_non_resolvable :
  parses [TStreamStart; TTag (Owned (bytes "!")) (Owned (bytes "")); TScalar (Owned (bytes "Scalar with non-resolvable tag")) DoubleQuote; TStreamEnd]
    [Ok (Some (EvStreamStart));
    Ok (Some (EvDocumentStart (mkDirs (1, 2)%N [(Owned (bytes "!"), Owned (bytes "!")); (Owned (bytes "!!"), Owned (bytes "tag:yaml.org,2002:"))]) true));
    Ok (Some (EvScalar (mkNode None None Root) (Eager (Owned (bytes "Scalar with non-resolvable tag")) DoubleQuote)));
    Ok (Some (EvDocumentEnd true));
    Ok (Some (EvStreamEnd));
    Ok None].
Proof. vm_compute. reflexivity. Qed.

(** src/event/parser/mod.rs:1544 *)
Example parser_error_undefined_tag :
  parses [TStreamStart; TTag (Owned (bytes "!unknown!")) (Owned (bytes "bad-tag-handle")); TScalar (Owned (bytes "Scalar with non-resolvable tag")) DoubleQuote; TStreamEnd]
    [Ok (Some (EvStreamStart));
    Ok (Some (EvDocumentStart (mkDirs (1, 2)%N [(Owned (bytes "!"), Owned (bytes "!")); (Owned (bytes "!!"), Owned (bytes "tag:yaml.org,2002:"))]) true));
    Err UndefinedTag].
Proof. vm_compute. reflexivity. Qed.

(** src/event/parser/mod.rs:1563 *)
Example parser_flow_sequence_compact_mapping :
  parses [TStreamStart; TFlowSequenceStart; TKey; TScalar (Owned (bytes "compact mapping key")) DoubleQuote; TValue; TScalar (Owned (bytes "compact mapping value")) DoubleQuote; TFlowSequenceEnd; TStreamEnd]
    [Ok (Some (EvStreamStart));
    Ok (Some (EvDocumentStart (mkDirs (1, 2)%N [(Owned (bytes "!"), Owned (bytes "!")); (Owned (bytes "!!"), Owned (bytes "tag:yaml.org,2002:"))]) true));
    Ok (Some (EvSequenceStart (mkNode None None Root)));
    Ok (Some (EvMappingStart (mkNode None None Entry)));
    Ok (Some (EvScalar (mkNode None None Key) (Eager (Owned (bytes "compact mapping key")) DoubleQuote)));
    Ok (Some (EvScalar (mkNode None None Value) (Eager (Owned (bytes "compact mapping value")) DoubleQuote)));
    Ok (Some (EvMappingEnd));
    Ok (Some (EvSequenceEnd));
    Ok (Some (EvDocumentEnd true));
    Ok (Some (EvStreamEnd));
    Ok None].
Proof. vm_compute. reflexivity. Qed.

(** src/event/parser/mod.rs:1594 *)
Example parser_block_sequence_entry_implied :
  parses [TStreamStart; TBlockSequenceStart; TBlockEntry; TBlockEntry; TScalar (Owned (bytes "Entry #2")) SingleQuote; TBlockEntry; TBlockEntry; TScalar (Owned (bytes "Entry #4")) Plain; TBlockEntry; TBlockEnd; TStreamEnd]
    [Ok (Some (EvStreamStart));
    Ok (Some (EvDocumentStart (mkDirs (1, 2)%N [(Owned (bytes "!"), Owned (bytes "!")); (Owned (bytes "!!"), Owned (bytes "tag:yaml.org,2002:"))]) true));
    Ok (Some (EvSequenceStart (mkNode None None Root)));
    Ok (Some (EvScalar (mkNode None None Entry) (Eager (Owned (bytes "")) Plain)));
    Ok (Some (EvScalar (mkNode None None Entry) (Eager (Owned (bytes "Entry #2")) SingleQuote)));
    Ok (Some (EvScalar (mkNode None None Entry) (Eager (Owned (bytes "")) Plain)));
    Ok (Some (EvScalar (mkNode None None Entry) (Eager (Owned (bytes "Entry #4")) Plain)));
    Ok (Some (EvScalar (mkNode None None Entry) (Eager (Owned (bytes "")) Plain)));
    Ok (Some (EvSequenceEnd));
    Ok (Some (EvDocumentEnd true));
    Ok (Some (EvStreamEnd));
    Ok None].
Proof. vm_compute. reflexivity. Qed.

(** src/event/parser/mod.rs:1630 *)
Example parser_block_mapping_key_implied :
  parses [TStreamStart; TBlockMappingStart; TKey; TValue; TScalar (Owned (bytes "value 1")) Plain; TKey; TScalar (Owned (bytes "key 2")) Plain; TValue; TScalar (Owned (bytes "value 2")) Plain; TKey; TValue; TScalar (Owned (bytes "value 3")) Plain; TBlockEnd; TStreamEnd]
    [Ok (Some (EvStreamStart));
    Ok (Some (EvDocumentStart (mkDirs (1, 2)%N [(Owned (bytes "!"), Owned (bytes "!")); (Owned (bytes "!!"), Owned (bytes "tag:yaml.org,2002:"))]) true));
    Ok (Some (EvMappingStart (mkNode None None Root)));
    Ok (Some (EvScalar (mkNode None None Key) (Eager (Owned (bytes "")) Plain)));
    Ok (Some (EvScalar (mkNode None None Value) (Eager (Owned (bytes "value 1")) Plain)));
    Ok (Some (EvScalar (mkNode None None Key) (Eager (Owned (bytes "key 2")) Plain)));
    Ok (Some (EvScalar (mkNode None None Value) (Eager (Owned (bytes "value 2")) Plain)));
    Ok (Some (EvScalar (mkNode None None Key) (Eager (Owned (bytes "")) Plain)));
    Ok (Some (EvScalar (mkNode None None Value) (Eager (Owned (bytes "value 3")) Plain)));
    Ok (Some (EvMappingEnd));
    Ok (Some (EvDocumentEnd true));
    Ok (Some (EvStreamEnd));
    Ok None].
Proof. vm_compute. reflexivity. Qed.

(** src/event/parser/mod.rs:1669 *)
Example parser_block_mapping_value_implied :
  parses [TStreamStart; TBlockMappingStart; TKey; TScalar (Owned (bytes "key 1")) Plain; TValue; TKey; TScalar (Owned (bytes "key 2")) Plain; TValue; TScalar (Owned (bytes "value 2")) Plain; TKey; TScalar (Owned (bytes "key 3")) Plain; TKey; TScalar (Owned (bytes "key 4")) Plain; TValue; TBlockEnd; TStreamEnd]
    [Ok (Some (EvStreamStart));
    Ok (Some (EvDocumentStart (mkDirs (1, 2)%N [(Owned (bytes "!"), Owned (bytes "!")); (Owned (bytes "!!"), Owned (bytes "tag:yaml.org,2002:"))]) true));
    Ok (Some (EvMappingStart (mkNode None None Root)));
    Ok (Some (EvScalar (mkNode None None Key) (Eager (Owned (bytes "key 1")) Plain)));
    Ok (Some (EvScalar (mkNode None None Value) (Eager (Owned (bytes "")) Plain)));
    Ok (Some (EvScalar (mkNode None None Key) (Eager (Owned (bytes "key 2")) Plain)));
    Ok (Some (EvScalar (mkNode None None Value) (Eager (Owned (bytes "value 2")) Plain)));
    Ok (Some (EvScalar (mkNode None None Key) (Eager (Owned (bytes "key 3")) Plain)));
    Ok (Some (EvScalar (mkNode None None Value) (Eager (Owned (bytes "")) Plain)));
    Ok (Some (EvScalar (mkNode None None Key) (Eager (Owned (bytes "key 4")) Plain)));
    Ok (Some (EvScalar (mkNode None None Value) (Eager (Owned (bytes "")) Plain)));
    Ok (Some (EvMappingEnd));
    Ok (Some (EvDocumentEnd true));
    Ok (Some (EvStreamEnd));
    Ok None].
Proof. vm_compute. reflexivity. Qed.

(** src/event/parser/mod.rs:1714 *)
Example parser_flow_sequence_entry_mapping_key_implied :
  parses [TStreamStart; TFlowSequenceStart; TKey; TValue; TScalar (Owned (bytes "compact mapping value")) DoubleQuote; TFlowSequenceEnd; TStreamEnd]
    [Ok (Some (EvStreamStart));
    Ok (Some (EvDocumentStart (mkDirs (1, 2)%N [(Owned (bytes "!"), Owned (bytes "!")); (Owned (bytes "!!"), Owned (bytes "tag:yaml.org,2002:"))]) true));
    Ok (Some (EvSequenceStart (mkNode None None Root)));
    Ok (Some (EvMappingStart (mkNode None None Entry)));
    Ok (Some (EvScalar (mkNode None None Key) (Eager (Owned (bytes "")) Plain)));
    Ok (Some (EvScalar (mkNode None None Value) (Eager (Owned (bytes "compact mapping value")) DoubleQuote)));
    Ok (Some (EvMappingEnd));
    Ok (Some (EvSequenceEnd));
    Ok (Some (EvDocumentEnd true));
    Ok (Some (EvStreamEnd));
    Ok None].
Proof. vm_compute. reflexivity. Qed.

(** src/event/parser/mod.rs:1745 *)
Example parser_flow_sequence_entry_mapping_value_implied :
  parses [TStreamStart; TFlowSequenceStart; TKey; TScalar (Owned (bytes "compact mapping key")) DoubleQuote; TValue; TFlowSequenceEnd; TStreamEnd]
    [Ok (Some (EvStreamStart));
    Ok (Some (EvDocumentStart (mkDirs (1, 2)%N [(Owned (bytes "!"), Owned (bytes "!")); (Owned (bytes "!!"), Owned (bytes "tag:yaml.org,2002:"))]) true));
    Ok (Some (EvSequenceStart (mkNode None None Root)));
    Ok (Some (EvMappingStart (mkNode None None Entry)));
    Ok (Some (EvScalar (mkNode None None Key) (Eager (Owned (bytes "compact mapping key")) DoubleQuote)));
    Ok (Some (EvScalar (mkNode None None Value) (Eager (Owned (bytes "")) Plain)));
    Ok (Some (EvMappingEnd));
    Ok (Some (EvSequenceEnd));
    Ok (Some (EvDocumentEnd true));
    Ok (Some (EvStreamEnd));
    Ok None].
Proof. vm_compute. reflexivity. Qed.

(** src/event/parser/mod.rs:1776 *)
Example parser_flow_mapping_key_implied :
  parses [TStreamStart; TFlowMappingStart; TKey; TValue; TScalar (Owned (bytes "value 1")) SingleQuote; TFlowMappingEnd; TStreamEnd]
    [Ok (Some (EvStreamStart));
    Ok (Some (EvDocumentStart (mkDirs (1, 2)%N [(Owned (bytes "!"), Owned (bytes "!")); (Owned (bytes "!!"), Owned (bytes "tag:yaml.org,2002:"))]) true));
    Ok (Some (EvMappingStart (mkNode None None Root)));
    Ok (Some (EvScalar (mkNode None None Key) (Eager (Owned (bytes "")) Plain)));
    Ok (Some (EvScalar (mkNode None None Value) (Eager (Owned (bytes "value 1")) SingleQuote)));
    Ok (Some (EvMappingEnd));
    Ok (Some (EvDocumentEnd true));
    Ok (Some (EvStreamEnd));
    Ok None].
Proof. vm_compute. reflexivity. Qed.

(** src/event/parser/mod.rs:1803 *)
Example parser_flow_mapping_value_implied :
  parses [TStreamStart; TFlowMappingStart; TKey; TScalar (Owned (bytes "key 1")) SingleQuote; TValue; TFlowMappingEnd; TStreamEnd]
    [Ok (Some (EvStreamStart));
    Ok (Some (EvDocumentStart (mkDirs (1, 2)%N [(Owned (bytes "!"), Owned (bytes "!")); (Owned (bytes "!!"), Owned (bytes "tag:yaml.org,2002:"))]) true));
    Ok (Some (EvMappingStart (mkNode None None Root)));
    Ok (Some (EvScalar (mkNode None None Key) (Eager (Owned (bytes "key 1")) SingleQuote)));
    Ok (Some (EvScalar (mkNode None None Value) (Eager (Owned (bytes "")) Plain)));
    Ok (Some (EvMappingEnd));
    Ok (Some (EvDocumentEnd true));
    Ok (Some (EvStreamEnd));
    Ok None].
Proof. vm_compute. reflexivity. Qed.

(** src/event/parser/mod.rs:1830 *)
Example parser_flow_mapping_key_singleton :
  parses [TStreamStart; TFlowMappingStart; TScalar (Owned (bytes "singleton key")) SingleQuote; TFlowMappingEnd; TStreamEnd]
    [Ok (Some (EvStreamStart));
    Ok (Some (EvDocumentStart (mkDirs (1, 2)%N [(Owned (bytes "!"), Owned (bytes "!")); (Owned (bytes "!!"), Owned (bytes "tag:yaml.org,2002:"))]) true));
    Ok (Some (EvMappingStart (mkNode None None Root)));
    Ok (Some (EvScalar (mkNode None None Key) (Eager (Owned (bytes "singleton key")) SingleQuote)));
    Ok (Some (EvScalar (mkNode None None Value) (Eager (Owned (bytes "")) Plain)));
    Ok (Some (EvMappingEnd));
    Ok (Some (EvDocumentEnd true));
    Ok (Some (EvStreamEnd));
    Ok None].
Proof. vm_compute. reflexivity. Qed.

(** src/event/parser/mod.rs:1857 *)
Example parser_node_anchor_implied :
  parses [TStreamStart; TAnchor (Owned (bytes "empty")); TStreamEnd]
    [Ok (Some (EvStreamStart));
    Ok (Some (EvDocumentStart (mkDirs (1, 2)%N [(Owned (bytes "!"), Owned (bytes "!")); (Owned (bytes "!!"), Owned (bytes "tag:yaml.org,2002:"))]) true));
    Ok (Some (EvScalar (mkNode (Some (Owned (bytes "empty"))) None Root) (Eager (Owned (bytes "")) Plain)));
    Ok (Some (EvDocumentEnd true));
    Ok (Some (EvStreamEnd));
    Ok None].
Proof. vm_compute. reflexivity. Qed.

(** src/event/parser/mod.rs:1877 *)
Example parser_node_tag_implied :
  parses [TStreamStart; TTag (Owned (bytes "!!")) (Owned (bytes "str")); TStreamEnd]
    [Ok (Some (EvStreamStart));
    Ok (Some (EvDocumentStart (mkDirs (1, 2)%N [(Owned (bytes "!"), Owned (bytes "!")); (Owned (bytes "!!"), Owned (bytes "tag:yaml.org,2002:"))]) true));
    Ok (Some (EvScalar (mkNode None (Some (Owned (bytes "!!"), Owned (bytes "str"))) Root) (Eager (Owned (bytes "")) Plain)));
    Ok (Some (EvDocumentEnd true));
    Ok (Some (EvStreamEnd));
    Ok None].
Proof. vm_compute. reflexivity. Qed.

(** src/event/parser/mod.rs:1897 *)
Example parser_multi_document_implied :
  parses [TStreamStart; TDocumentStart; TScalar (Owned (bytes "Document 1")) SingleQuote; TDocumentEnd; TScalar (Owned (bytes "Document 2")) SingleQuote; TDocumentStart; TScalar (Owned (bytes "Document 3")) SingleQuote; TDocumentStart; TScalar (Owned (bytes "Document 4")) SingleQuote; TDocumentEnd; TScalar (Owned (bytes "Document 5")) SingleQuote; TDocumentEnd; TStreamEnd]
    [Ok (Some (EvStreamStart));
    Ok (Some (EvDocumentStart (mkDirs (1, 2)%N [(Owned (bytes "!"), Owned (bytes "!")); (Owned (bytes "!!"), Owned (bytes "tag:yaml.org,2002:"))]) false));
    Ok (Some (EvScalar (mkNode None None Root) (Eager (Owned (bytes "Document 1")) SingleQuote)));
    Ok (Some (EvDocumentEnd false));
    Ok (Some (EvDocumentStart (mkDirs (1, 2)%N [(Owned (bytes "!"), Owned (bytes "!")); (Owned (bytes "!!"), Owned (bytes "tag:yaml.org,2002:"))]) true));
    Ok (Some (EvScalar (mkNode None None Root) (Eager (Owned (bytes "Document 2")) SingleQuote)));
    Ok (Some (EvDocumentEnd true));
    Ok (Some (EvDocumentStart (mkDirs (1, 2)%N [(Owned (bytes "!"), Owned (bytes "!")); (Owned (bytes "!!"), Owned (bytes "tag:yaml.org,2002:"))]) false));
    Ok (Some (EvScalar (mkNode None None Root) (Eager (Owned (bytes "Document 3")) SingleQuote)));
    Ok (Some (EvDocumentEnd true));
    Ok (Some (EvDocumentStart (mkDirs (1, 2)%N [(Owned (bytes "!"), Owned (bytes "!")); (Owned (bytes "!!"), Owned (bytes "tag:yaml.org,2002:"))]) false));
    Ok (Some (EvScalar (mkNode None None Root) (Eager (Owned (bytes "Document 4")) SingleQuote)));
    Ok (Some (EvDocumentEnd false));
    Ok (Some (EvDocumentStart (mkDirs (1, 2)%N [(Owned (bytes "!"), Owned (bytes "!")); (Owned (bytes "!!"), Owned (bytes "tag:yaml.org,2002:"))]) true));
    Ok (Some (EvScalar (mkNode None None Root) (Eager (Owned (bytes "Document 5")) SingleQuote)));
    Ok (Some (EvDocumentEnd false));
    Ok (Some (EvStreamEnd));
    Ok None].
Proof. vm_compute. reflexivity. Qed.

(** src/event/parser/mod.rs:1942 *)
Example parser_multi_document_directives :
  parses [TStreamStart; TVersionDirective 1 2; TTagDirective (Owned (bytes "!test1!")) (Owned (bytes "doc1.1")); TDocumentStart; TDocumentEnd; TTagDirective (Owned (bytes "!test1!")) (Owned (bytes "doc2.1")); TVersionDirective 1 1; TTagDirective (Owned (bytes "!test2!")) (Owned (bytes "doc2.2")); TDocumentStart; TDocumentEnd; TStreamEnd]
    [Ok (Some (EvStreamStart));
    Ok (Some (EvDocumentStart (mkDirs (1, 2)%N [(Owned (bytes "!"), Owned (bytes "!")); (Owned (bytes "!!"), Owned (bytes "tag:yaml.org,2002:")); (Owned (bytes "!test1!"), Owned (bytes "doc1.1"))]) false));
    Ok (Some (EvDocumentEnd false));
    Ok (Some (EvDocumentStart (mkDirs (1, 1)%N [(Owned (bytes "!"), Owned (bytes "!")); (Owned (bytes "!!"), Owned (bytes "tag:yaml.org,2002:")); (Owned (bytes "!test1!"), Owned (bytes "doc2.1")); (Owned (bytes "!test2!"), Owned (bytes "doc2.2"))]) false));
    Ok (Some (EvDocumentEnd false));
    Ok (Some (EvStreamEnd));
    Ok None].
Proof. vm_compute. reflexivity. Qed.

