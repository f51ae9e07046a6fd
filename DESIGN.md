# Formal model of romshark/jscan-experimental-decoder — design

Prover: Coq 8.16.1. All sources in `rocq/theories`, logical name `Verif`. Properties are in
`properties.jsonl`, their theorems in `MANIFEST.json` (written by `tools/manifest.py`), seeded-bug
experiments in `seeded/LOG.jsonl`.

## 1. What is modelled

Every non-test, non-benchmark Go file of the repository is modelled, function by function.

| source | model file | what |
|---|---|---|
| internal/atoi/atoi.go | `Atoi.v` | every length case; unrolled terms transcribed as (index, exponent) tables; every `*`, `+`, unary minus wraps to the width of the type |
| internal/jsonnum/jsonnum.go | `JsonNum.v` | every label and loop (8-byte chunk, tail loop) |
| internal/unescape/unescape.go | `Unescape.v` | lookup tables, the 8-byte look-ahead, IndexByte, `goto` |
| append_type_stack.go | `Types.v`, `AppendType.v` | Go types (named types through an environment, so recursive types and methods are expressible), frames, all of `appendTypeToStack` |
| jscandec.go 2751-2797 | `Lookup.v` | `fieldFrameIndexByName` |
| jscandec.go 714-2733, 2799-2850 | `Heap.v` (its properties: `Memory.v`), `Machine.v` | `Decode`: one iteration of the token loop is one `step`; the labels ON_VAL_END, ON_RECUR_OBJ_END, ON_PTR, ON_JSON_UNMARSHALER are functions; `decodeAny` |
| jscandec.go 35-45 | `PropsNumber.v` | the methods of `Number` |
| jscandec.go 484-602 | `Unmarshal.v` | `Unmarshal`, `NewDecoder` |

Not modelled: benchmarks, tests, code generators under `bench/`; the `String`
method of `ExpectType` (diagnostics only); the contents of error messages; the Go
scheduler (C47 interleaves whole loop iterations), the garbage collector (see C29 for what is provable about retained pointers), data races from concurrent
use of one decoder (the documentation forbids it).

Simplifications, each also stated at the definition:
* Memory is a heap of blocks of typed cells addressed by (block, byte offset). `Dest`+`Offset` pointer
  arithmetic is kept literally. Every access is checked: out of bounds or into the middle of a value
  is the explicit outcome `Corrupt`, nil dereference / index out of range / failed assertion `Panic`.
  A theorem that says a call returns therefore also says that it stays within allocated memory.
* `any` and `map[string]string` values are immutable trees in one cell; every map value has a block of
  its own.
* A stored float is represented by the decimal it is the correct rounding of and the sign of zero.
* The per-width copies of integer and float cases are one case with a parameter.
* `MapCanUseAssignFaststr` only selects among equivalent runtime functions and is not represented.
* `appendTypeToStack` and `Decode`'s loop carry fuel; "runs out for every fuel" is divergence (C31);
  `C13_terminates` shows that a stated amount of fuel always suffices for Decode.

External code, taken by contract (parameters of the model, quantified in the theorems):
* the jscan tokenizer: on success the callback receives the flattening of a JSON tree whose lexemes
  are at the token positions (`Token.v`, grammar of RFC 8259 as an inductive relation); on failure the
  callback is not called. The contract leaves no freedom: a text has at most one tree (`json_text_unique`,
  `Unique.v`), so the tokens are a function of the input, computed by the reference parser of `Parse.v`
  (sound and complete for the grammar: `parse_sound`, `parse_complete`);
* strconv.ParseFloat: correct rounding and range errors on JSON numbers, arbitrary elsewhere;
* strconv.ParseInt: base 10, 64 bits (`PropsNumber.v`);
* strings.EqualFold: an arbitrary relation; user UnmarshalJSON/UnmarshalText: arbitrary functions from
  old value and argument to new value and error;
* reflect sizes and offsets: environment data; where needed, the hypothesis that named types have the
  size of their underlying type (`sizes_ok`) and fields are disjoint and inside the struct (`layout`).

## 2. How it is proved

1. Leaf parsers: specifications `NumSpec.v` (grammar and value of numbers), `StrSpec.v` (string bodies,
   UTF-8); proofs by induction / modular arithmetic (`AtoiProofs`, `AtoiAny` — the integer parsers on arbitrary bytes —, `JsonNumProofs`, `UnescapeProofs`).
2. Whole machine, every frame list: invariants of `step` (`General.v`, `Alias.v`): C10–C13, C29, C33.
3. NewDecoder: (a) for every Go type (`Frames.v` relation, `Graph.v` exploration and termination,
   `Layout.v` positions): C30–C32; (b) for the types that `resolves` (`Elab.v`) relates to a resolved
   type `dt`, the frames `describe` it.
4. Decode on non-recursive types, in layers:
   token loop → recursive decoder on memory `dech` (`Control.v`, `Root.v`; documents in `ctl_root`)
   → recursive decoder on Go values `dval` (`Sep.v`, `Refine*.v`: separation-style representation
   predicate `rep`) → the ideal decoder `ideal` (`Spec.v`, `SpecProofs.v`; documents in `sound`).
   Composition: `Main.v`; user-level theorems in `PropsDecode`, `PropsStruct`, `PropsSlice`,
   `PropsHistory`.
5. Recursive structs: the same layers in `Rec`, `RecSpec`, `RecRefine`, `RecElab`, `PropsRec`. Types that contain recursive
   structs inside pointers, slices, maps and other structs: `Mixed`, `MixedSpec`, `MixedRefine`, `MixedElab`,
   `MixedTyped`, `PropsMixed` (documents of `wlast`: non-null pointers and non-empty lists of recursive structs are the last thing in what encloses them).
6. Where the code violates a property the theorem `Cnn_refuted…` runs the model on a concrete type and
   text; the positive theorem then excludes exactly the defective inputs (`ctl_root`: inputs on which
   the control flow is wrong; `sound`: inputs on which a leaf is wrong).

`ctl_root` (Control.v, "When the loop reaches the end of a value"): every value gets a lag, `On`, `Late` (the frame
of a nested non-null pointer is left only by the next closing token) or `Early` (an object for a nested `struct{}`, or
an unknown member with an object, leaves its closing brace to the enclosing object). Late and early values are
covered where they do no harm: as the last element or member of what encloses them (the lag is then inherited by an
object and repaired by an array or by a pointer to something early), and early ones anywhere in the object that is the
document. Excluded are: other members or elements after a late one, or after an early one in a nested object; unknown
members whose value is an array containing an object. Each exclusion is a defect shown in `PropsRefuted.v`.
`sound` excludes:
signed 8/16/32-bit literals that wrap into range, `-0` into floats, quoted numbers with trailing bytes or
empty, escaped surrogate pairs, too short arrays, `[]struct{}` null or with elements other than null and objects.
(That a map[string]string is replaced and that the values of duplicate map keys are reused is part of `ideal`; see
C23.) `actual` (`Actual.v`) is the ideal decoder with these deviations written out; it describes Decode on all of
`ctl_root` without the condition `sound` (`PropsExact.v`). The claims about members, fields, entries, elements, order and
repetition (C18–C21, C23, C25, C44, C45) are proved for `actual` too (`OrderActual.v`, `PropsAnyLeaf.v`), i.e. without `sound`.
For recursive struct types `RecActual.v` has the same (`actual_rec`) and `PropsRecAny.v` the theorems (C17, C26, C27, C28, C44, C45);
for recursion through pointers with unknown members disallowed (`rany_document`) they hold for every document. `PropsMixed.v` has C17, C26, C27 and C28 for types around recursive structs, `PropsMixedStruct.v` C16, C18–C20, C23, C29, C35 and C51.
`ctl_root` and `sound` are decidable; boolean checkers with proofs are in `Elaborate.v`.

## 3. Per property

See the `note` fields of `MANIFEST.json` for status. Plan and method:

- C01–C03 value of a digit list and range test; modular arithmetic on the unrolled tables. C03 is false
  (wrapped sums re-enter the positive range); the exact set of wrong literals is characterised.
- C04 grammar as an inductive relation; induction over chunks.
- C05 false; refutations, and the exact accepted language.
- C06–C08 one-step recursive unescape; induction on the length. Surrogate pairs are wrong.
- C09 `find` twice. C10–C13, C29, C33 invariants of `step` for every frame list and token list (C29 for Go types and
  recursive types: `PropsRetained.v`).
- C14–C24, C35, C36 the refinement chain of section 2.4.
- C25 `PropsNested.v` (pointers in structs, slices, maps), root pointers in `PropsDecode.v`. C25, C28, C31 false in general: witnesses and the largest class found.
- C26, C27 the chain of section 2.5 for a root struct with fields *S, []S, map[K]S; C27 is false for some
  member orders, nulls and empty maps (`rctl` excludes them). C30–C32 section 2.3. C34 comparison of the two parsing paths.
- C37 unfolding of Unmarshal; false for `any` holding a value.
- C38, C39 a simulation between two runs of `step` (`Sim.v`), for every frame list: configurations that differ in
  the input type and in the text of the same document stay equal up to string ownership and token positions.
- C40 two runs that differ in the options take the same steps unless a key is processed differently (`PropsOptions.v`).
- C41 inversion of a failing `step` (`Provenance.v`), then the token is traced back to the part of the document it
  starts (`PropsErrors.v`). ErrUnexpectedValue is only located (C12); when it is due is the subject of C14–C24.
- C42 `Encodes.v` says what an encoding of a value is (a relation, not an encoder) and when two values are the
  same; induction over the type shows that `ideal` inverts it and that encodings satisfy `ctl_root` and `sound`
  (`RoundTrip.v`). C43 printing of numbers, strings and documents (`Render.v`, `Writable.v`), then C42.
  Recursive struct types: the same on top of `ideal_rec` (`RecTrip.v`, `PropsRecTrip.v`);
  types that contain them: `MixedTrip.v`.
  False for types with pointers or struct{} below the root (C20, C25); UnmarshalJSON types are only in C42.
- C44, C45 induction over the type on `ideal` (`Order.v`): members commute when they have different targets, and
  decoding into the result is the identity; then C15 (`PropsOrder.v`). C44 is false outside `ctl_root`.
  Recursive struct types: `RecOrder.v`, on top of `ideal_rec` and C26; types that contain them: `MixedOrder.v`.
- C15–C17 once more with no condition on the document (`PropsStrict.v`): for types without pointers and
  struct{} below the root, and DisallowUnknownFields if the type contains structs, every document is in
  `ctl_root`.
- C53, C54 the classes of types for which nothing has to be assumed about documents (`PropsSafe.v`), from C15 and C26;
  C53 also for sequences of calls. C55–C58 the exact behaviour where the ideal one is refuted (`PropsExact.v`).
- C59 pointers outside of lists: the loop leaves values late, one bracket early or not at all, but the memory between the destination
  and the current frame always holds values of the types of the frames (`Ctx`, an invariant over all positions of the loop, `PtrSafe.v`; `PropsPtr.v`).
- C60 `check`: the verdict of the code as a function of type and document, by induction over the type on `actual`
  (`Accept.v`, `PropsAccept.v`; recursive structs and types around them `AcceptRec.v`, `PropsAcceptRec.v`). C61 the same on
  the ideal: `conforms`, a predicate without memory, order or errors; false for the leaves of C03, C05. C62 as C54, from C26 (mixed).
- C63–C67 what holds without exception of claims the code refutes in general: C63 from C28 (simulation of two runs that
  differ in stale frame state), C64 from C31 (termination of `append` as well-foundedness of `direct`), C65 from C37 and
  C63, C66 from C29 (which frames can hold recursion records), C67 by inversion of the layout of C30
  (`PropsExactMore.v`).
- C68 (`Prefix.v`, `PropsPrefix.v`) simulation of two runs on token streams whose first n tokens correspond (same type,
  index and lexeme; containers that end in the common part are equal, those that do not end beyond n in both): a step
  that stays in the common part is the same, an error at index i < m is raised at a common token. The correspondence
  follows from equality of the trees cut at byte m (`cut`) because tokens are sorted by byte index (`value_sorted`).
- C69 (`PropsFailed.v`) from C53 (the value left by an error is part of the result of `actual`): induction over members, entries
  and elements gives the split of the document at the failing one.
- C70, C71, C72 (`PropsPlain.v`) C19-C23, C42-C45 restricted to the types on which they hold without exception.
- C46, C47 (`Inject.v`, `Local.v`, `PropsConcurrent.v`) a simulation of `step` under a one-to-one correspondence of
  memory blocks, for every frame list and token list; each step extends the correspondence only by fresh blocks and
  changes only corresponding blocks. For C47 every goroutine corresponds to its run alone, and the correspondences of
  different goroutines share no block. Simplifications: one iteration of the token loop is one atomic step (the
  goroutines own disjoint memory, so smaller steps would commute); separation is per block (Go allocation), so two
  elements of one array are not covered; a panic of one goroutine crashes the program, so each call alone is required
  to return; each decoder has its own tokenizer; the only shared memory is the block of zero-sized objects
  (`emptyStructAddr`), which has no bytes. The package variables `zero…` are only read.
- C48 the invariant of C33 with an arbitrary predicate on strings (`Alias.v`). C49 a potential argument on `step`
  (`Alloc.v`): every iteration that allocates consumes a token or descends a frame, and the element counts announced by
  the remaining array tokens pay for the slices. C50 unfolding of ParseInt/ParseFloat, then C14 (`PropsNumber.v`). C51 C15 twice, for two Go types with the same
  `dt` (`PropsShared.v`); the refutations are runs of NewDecoder and Decode (`PropsRefuted.v`).
- C52 the tag rules of encoding/json written down separately (`PropsTags.v`) and compared with `resolves`.
- C73 (`PropsFlat.v`) the loop itself, token by token, without the recursive decoder of layer 2 (which does not describe it
  here: after an unknown member that contains an object the loop is in the wrong frame). Invariant: memory is a forest of
  disjoint values, the destination and what was allocated for pointers (`sound`; pointers are never followed by the
  decoder, so a value is described up to what its pointers refer to, `cut`), and every frame is unused
  (nil destination), or aims at its place in a root (`place`), or at an element of the array before it (`aim`);
  every position in the document is a value, a key or a closing bracket (`items`); values at frames without fields are
  `dech` and refine `dval` (Refine3). Missing for more types: with lists of composite elements the claim is false
  (C16_refuted_unknown_array, C16_refuted_out_of_bounds); maps with unknown members of any contents are open
  (C59 has them for documents in which no array contains an object).
- C74 (`PropsLinked.v`) from C62: what `wactual` and `actual_rec` leave, by induction over members, entries and elements, for
  any decoder of the elements (so at every depth).
- C75 (`PropsTrees.v`) the ideal decoder maps every encoding, from any previous tree without map entries, to the encoded value
  (induction over the depth of the document, over members, elements and entries); Decode computes the ideal on encodings (C26, MixedTrip.v);
  a variable of a type without maps holds no map entries, by induction over the memory; order and repetition as C44, C45 (`MixedOrder.v`).
- C76 (`PropsProgram.v`) one call keeps the invariant `ready` (decoders of recursive types new or used in successes, others any) and `holds_all` (every
  variable holds its value, blocks pairwise disjoint): the frame `only` of C53 and C62 and stability of the representation; then
  induction over the program; the other claims compare programs through `values`.

## 4. Findings (defects of the code established by the model)

Each is a theorem (`PropsRefuted.v`, `PropsTypes.v`, `PropsRec.v`) or noted at the excluded case.

1. int8/int16/int32 overflow is missed when the wrapped sum is positive (300 → int8 44) — C03.
2. The empty string as a quoted number (`,string` fields, Number, integer map keys) panics — C05, C17.
3. Trailing bytes of quoted numbers are ignored (`"1a"` → 59, Number("123abc")) — C05.
4. `\uD83D\uDE00` decodes to two U+FFFD — C08.
5. Skipping an unknown member stops at the first `}` inside its value: later members are read as
   members of the enclosing struct, or memory is written out of bounds — C16, C17, C18, C20. After an array that
   contains an object, the closing bracket moves to the frame *before* the struct in the decoder's frame list, whatever
   field that is: with a `[][]int` there, memory is corrupted (C16_refuted_unknown_array); structs, arrays and
   pointers alone are never corrupted (C73).
6. Pointers below the root: the frame is not left after the value — C25. With lists around them a valid
   document is refused (C25_refuted_nested_lists) and documents of a wrong shape are written outside of the
   backing array, also with DisallowUnknownFields — C16_refuted_pointers.
7. struct{} below the root: the closing token is processed again — C19, C20.
8. Recursive types: null in `[]S`, empty `map[K]S`, `[]*S` — C27; recursive struct at a non-zero offset
   has its members stored at wrong addresses after a nested value — C26_refuted_nested; in a list element
   after the first, members after a non-empty list are stored in the first element —
   C27_refuted_member_order — and the values of maps are written outside the map's memory —
   C27_refuted_map_in_list. An empty `map[K]S` also leaves an entry on the recursion stack of the decoder:
   after that *successful* call the same call is refused, and the decoder retains a pointer — C45_refuted_recursive,
   C28_refuted_after_success, C29_refuted_after_success.
9. After a failed call the recursion stack is kept: the next call pops it and writes to the previous
   call's destination — C16, C28, C29. Lengths of array frames survive calls as well — C28; a document can
   succeed once and panic the second time — C45_refuted_array.
10. Map keys other than string/integer kinds/text unmarshalers: nil dereference — C17.
11. A struct with an unmarshaler that was met before and occurs as slice/map element type turns the first
    occurrence into a plain struct without fields: UnmarshalJSON is not called, the value is silently
    dropped — C30_refuted, C36_refuted_confusion.
12. `*T` with unmarshaler: called on a nil pointer; specialised slices ignore the unmarshalers of their
    elements — C36.
13. NewDecoder does not return on `type T []T`, `type P *P`; the exact criterion is C31_returns_iff.
14. Array elements missing in the document keep their old values — C22; map[string]string drops existing
    entries, duplicate keys reuse stale element values — C23; null does not reset some types — C35;
    `-0` gives +0 in floats — C34; Unmarshal into a non-nil `any` decodes into its dynamic type — C37.
15. A pointer to, slice or map of a struct type that occurs anywhere before (not only around) the current
    place is taken for recursion: `struct{A, B []P}` loses B without an error, an unknown member overwrites
    an element of A, `struct{A [2]P; B *P}` panics — C51_refuted_*. `resolves` (`unseen`) excludes such types
    from C15 and everything built on it.
16. Struct tags: fields that are not exported are written from the document; `json:"-,"` hides the field;
    `,omitempty,string` is not `string`; names with invalid characters are used; embedded structs are not
    promoted — C52_refuted_*.
    A key that strings.EqualFold takes for the name of a field but that has another length in bytes (`K` and
    U+212A, `S` and U+017F) is unknown (C52_refuted_folding, for every fold relation C52_refuted_folding_always).
17. A list or array of a recursive struct: with an empty recursion stack the end of the list (2567-2574)
    leaves the current frame at the element. `[]Tree` puts members of later elements into element 0;
    in `struct{I []Tree; V …}` the members after I are looked up in Tree; `[][]Tree` is refused at the second
    list; a full `[2]Tree` panics — C26_refuted_list*, C17_refuted_recursive_array.
18. Recursion that does not go straight from a field to the struct itself: mutually recursive structs and inner structs
    that point back lose members or store them in the wrong struct (success is reported), `[]*S` with two elements,
    `**S` and `[][]S` are refused — C26_refuted_mutual, C26_refuted_inner_struct, C26_refuted_double_pointer,
    C27_refuted_pointer_list, C27_refuted_nested_list.

## 5. Trusted base

* Coq's kernel (8.16.1).
* Axioms: `Print Assumptions` answers "Closed under the global context" for every theorem named in
  `MANIFEST.json` (`tools/assumptions.py` reprints this; 303 theorems at the last run). No axiom of any
  library is used. (The seven `Coq.ssr.ssrunder` parameters that a scan of the loaded modules reports are
  interface fields of a standard-library module loaded by Lia; no theorem depends on them.)
* The reading of the Go source into the model (comments cite lines) and the contracts of external code of
  section 1.
* The specifications: `NumSpec`, `StrSpec`, `Token` (grammar), `Dt`/`Elab.resolves` (types), `Value.rep`
  (memory representation), `Spec.ideal`, `RecSpec.ideal_rec`, `Layout.laid`, `Frames.visits`.

### How the reading of the source is tested

The sandbox cannot run Go, but the repository's tests state what the code computes. `tools/conformance.py`
(with a small Go parser, `tools/goparse.py`) translates them into `Conformance.v`: 1244 decode cases in 128
groups (one decoder per group, reused from case to case as in the Go tests, run with string and with []byte
input), 68 cases of `TestAppendTypeToStack`, 655 cases of `internal/atoi`, `internal/jsonnum` and
`internal/unescape`. The model gives the expected result in every case, so its frames, values, error kinds
and error positions are those of the code there. The decode cases are also run on the specification
(`ideal`, `ideal_rec`): again every case agrees, and since the Go helper compares each result with
encoding/json, the specification means what encoding/json does on these inputs. The cases not covered
(three large embedded files, the Int64/Float64 accessors of Number, one computed input) are listed at the
top of `Conformance.v`. These are tests of the model; no property rests on them.
