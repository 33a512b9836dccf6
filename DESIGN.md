# Design of the fixed-map model and proofs

Target: fixed-map 0.9.5 as found in `/repo` (runtime crate `src/`, proc macro
crate `fixed-map-derive/`).  The model is written in Rocq/Coq 8.16.1 under
`rocq/theories` (logical name `Verif`), using only Coq's standard library.

## 1. What is modelled, and how

* **Traits as records.**  `MapStorage`, `SetStorage`, `RawStorage`, `Key` and
  `Iterator` / `DoubleEndedIterator` are Coq records of functions
  (`Traits.v`, `Std.v`); every storage in `src/{map,set}/storage` is one value
  of the record, written function by function (`MapStorages.v`,
  `SetStorages.v`).
* **The derive macro as combinators.**  The code generated by
  `unit_variants.rs` (plain arrays and bitsets) and `any_variants.rs` is
  modelled by functions over the list of variants, each variant being a unit
  variant or a one-field variant with an *arbitrary* `Key` implementation for
  the field type (`DeriveUnit.v`, `DeriveAny.v`).
* **All key types at once.**  `kty` (`Key.v`) is a syntax of key types (`bool`,
  `()`, primitives backed by hash tables, `Option<_>`, derived enums with or
  without `#[key(bitset)]`, arbitrarily nested); `derive` maps it to its `Key`
  implementation, or to `None` when none is generated.  Theorems quantify over
  every `kty`.
* **Enum values.**  A value of an enum is a nested sum: variant number `i` with
  payload `x` is `inr^i (inl x)`.
* **`&mut V` references** are paths (`list nat`) into the storage, dereferenced
  and assigned by per-storage `ms_load`/`ms_store`; aliasing is path equality.
* **Unsafe code.**  `unwrap_unchecked` on `None`, `new_unchecked` on the wrong
  variant and the drop-skipping `write` over a `Some` return explicit error
  values (`UB`, `Leak`); `Panic` is another.  Absence of undefined behaviour is
  a theorem (C18).
* **Closures.**  `FnMut` closures are state-passing functions over an arbitrary
  state type.  Retain closures may mutate the value they are handed and may
  unwind at any call (`Keep | Discard | Unwind`); closures of the entry API may
  unwind too (`None` result, or `Unwound` outcome).  That gives all crash
  points.
* **Iterators** are state machines (start/end cursors, bit masks, the std
  adapters `Map`, `Chain`, `Flatten`, `FlatMap`, option and array iterators),
  observed through arbitrary sequences of `next` / `next_back` calls, with
  `size_hint`.
* **Machine integers.**  Bitset words are `N` with an explicit width;
  complement is width-aware.  `usize` counters and lengths are `nat` (no
  overflow is reachable: lengths are bounded by memory).
* **Hash tables and randomness.**  `Hashbrown.v`: an association list without
  duplicate keys.  Every table is created with a `world`, an arbitrary function
  that decides after every insertion of a new key how the entries are
  reordered; theorems quantify over every world.
* **API layer** (`Api.v`, `Debug.v`).  `Map`, `Set`, `Entry`, `Intersection`,
  ordering helpers, `FromIterator`, `From<[T; N]>`, serde serializer and visitor
  loops, `Debug` text.
* **Derive front end** (`Front.v`).  From a parsed item (struct/enum/union,
  variants, fields, attributes) to the verdict of the macro and of the compiler
  on its output: attribute parser, `Ctxt` error accumulation, dispatch, variant
  checks, `determine_bits`, the panicking `unwrap` on an empty field list, and
  exhaustiveness of the generated `match`.

Reachability.  `map_reachable` / `set_reachable` (`Reach.v`) are inductive: the
values safe programs can build with `new`, all mutating methods, assignments
through handed-out references, entries and `clone`.  `Set::from_raw` is treated
separately (C35, C36).

## 2. What is not modelled

* hashbrown itself, beyond the table model above.  That hashbrown behaves like
  it for keys with lawful `Eq`/`Hash` is trusted.
* std: the behaviour of `Option`, arrays, slices, `mem::replace`, iterator
  adapters, `fmt` builders, derived `PartialEq`/`Hash`/`Ord`/`Clone` is modelled
  from its documentation and trusted.
* Lifetimes, borrow checking, visibility, `where` clauses other than those for
  `DoubleEndedIterator`, raw storage and the traits of C50.
* `it_clone` exists for every iterator of the model; which owning iterators
  really are `Clone` is stated by C50 (`Avail.v`).
* Const-ness; memory layout; performance (the user's `fmt` is C65, their
  `V::eq`, `V::cmp`, `V::partial_cmp` and `V::hash` are C58 and C59);
  that a second panic aborts the process is part of C63 to C66 only: in C12, C13 and C51 a
  second destructor that panics while a whole array is dropped is ignored.
* The range of primitive keys (a `u8` key is any integer in the model; this only
  enlarges the set of inputs the theorems cover).
* In the interpreter of C60 and C61: types, lifetimes, borrow checking (a program that rustc
  refuses is stuck or runs as if it had not been); the impls that only forward to the
  data (`Clone`, `PartialEq`, `Hash`, `PartialOrd`, `Ord`, unit_variants.rs:176-222, 551-604,
  modelled in `DeriveUnit.v` only) are not among the templates.  In C61 the
  clone of an owning iterator over a map is not requested (1447-1457); a place that is borrowed as a whole
  (an element storage, an entry, an iterator over one) is a state of the model's record.
* In the front end: generics (absent in the model), token-level
  details (spans, visibility; hygiene only as in `Names.v`); that the enum is `Copy` is
  assumed; uninhabited field types and empty enums are not special-cased by the
  exhaustiveness check; the behaviour of `syn`'s `parse_nested_meta` is trusted
  as modelled.

## 3. File layout

| file | content |
|---|---|
| `Std.v` | results, references, iterators and std adapters |
| `Traits.v` | `MapStorage`, `SetStorage`, `RawStorage`, `KeyImpl` records |
| `OptionBucket.v` | `src/option_bucket.rs` |
| `Hashbrown.v` | trusted hash table model |
| `MapStorages.v`, `SetStorages.v` | `src/map/storage/*`, `src/set/storage/*` |
| `DeriveUnit.v`, `DeriveAny.v` | generated code |
| `Key.v` | key type syntax, `derive` |
| `Api.v`, `Debug.v` | `Map`, `Set`, `Entry`, `Intersection`, serde, ordering, `Debug` |
| `Avail.v` | which traits are implemented |
| `Front.v` | macro front end |
| `Names.v` | names and scopes in the generated code |
| `Rust.v`, `UnitCode.v` | the fragment of Rust that the derive writes, with an interpreter; the code it writes for unit enums |
| `Sources.v` | `from_iter` and `deserialize` with sources and destructors that have effects |
| `Fmt.v` | `Debug` with failing sinks, effects and alternate mode |
| `Program.v` | programs over several maps |
| `AnyCode.v`, `AnyRun.v` | the code it writes for enums with tuple variants; what calls to the storages of the element types do |
| `Spec.v`, `Reach.v`, `History.v`, `SetHistory.v`, `OrdSpec.v`, `StateSpec.v`, `FrontSpec.v`, `BucketSpec.v`, `AvailSpec.v`, `EffectSpec.v`, `ComposeSpec.v`, `FullSpec.v`, `RenameSpec.v`, `NamesSpec.v`, `EqSpec.v`, `OrdCallSpec.v`, `CodeSpec.v`, `AnyCodeSpec.v`, `AnyRefSpec.v`, `SourceSpec.v`, `ProgramSpec.v`, `FmtSpec.v`, `DropSpec.v`, `SetProgramSpec.v`, `ClearSpec.v`, `SrcSpec.v`, `SrcWhole.v` | vocabulary of the statements |
| `Samples.v` | concrete key types and values for the examples |
| `RepoTests.v` | the repository's own tests and documentation examples with assertions, run on the model (tests of the model, not proofs) |
| `IterLaws.v`, `MapCore.v`, `MapLaws.v`, `OptLaws.v`, `HashLaws.v`, `UnitLaws.v`, `AnyLaws.v`, `DropLaws.v`, `CloneUndo.v`, `SetCore.v`, `SetLaws.v`, `BitLaws.v`, `AnySetLaws.v`, `KeyLaws.v` | storage laws |
| `AnyCodeKeys.v`, `AnyCodeMap.v`, `AnyCodeEntry.v`, `AnyCodeOps.v`, `AnyCodeIter.v`, `AnyCodeArms.v`, `AnyCodeViews.v`, `AnyCodeSets.v`, `AnyRetains.v`, `AnyCodeMain.v` | lemmas for C61 |
| `AnyRef.v`, `AnyRefMain.v`, `AnyRefSet.v` | lemmas for C62 |
| `SrcText.v`, `SrcLex.v`, `SrcParse.v`, `SrcRun.v`, `SrcStd.v`, `SrcFiles.v` | the text of source files, and what it takes to run it |
| `SrcProofs.v`, `SrcForeign.v`, `SrcBool.v`, `SrcSingle.v`, `SrcSets.v`, `SrcOption.v`, `SrcOption2.v`, `SrcHash.v`, `SrcSets2.v`, `SrcSound.v`, `SrcMain.v` | lemmas for C68 |
| `DeriveText.v`, `DeriveQuote.v`, `DeriveRead.v`, `DeriveInst.v`, `DeriveCode.v` | the text of the derive macro, and what it takes to run it |
| `DeriveItems.v`, `DeriveEqual.v`, `DeriveMain.v` | lemmas for C69 |
| `SrcFront.v`, `SrcFrontSetSpec.v` | running the text of the front end |
| `SrcFrontMap.v`, `SrcFrontEntry.v`, `SrcFrontWhole.v`, `SrcFrontLoop.v`, `SrcFrontSound.v`, `SrcFrontSet.v`, `SrcFrontSetLoop.v`, `SrcFrontMain.v` | lemmas for C70 |
| `SrcFrontSerde.v` | running the text of the serde and `Debug` impls |
| `SrcFrontSerdeProofs.v` | lemmas for C71 |
| `SrcSupport.v`, `SrcSupportSpec.v` | running src/macro_support.rs; the order by positions |
| `SrcSupportProofs.v`, `SrcSupportFacts.v` | lemmas for C72 |
| `DeriveTraits.v` | the traits of generated storages, and running their functions |
| `DeriveTraitsProofs.v` | lemmas for C73 |
| `KeyText.v`, `KeyRead.v` | the text of src/key.rs, and reading it |
| `KeyReadProofs.v` | lemmas for C74 |
| `AttrText.v`, `AttrRun.v` | the text of attrs.rs and symbol.rs, and running the front end of the macro |
| `AttrProofs.v` | lemmas for C75 |
| `*Facts.v`, `*Proofs.v`, `FmtText.v`, `DropMain.v` | lemmas |
| `Props*.v` | the property theorems and their examples, nothing else |

## 4. How each property is proved

Central invariant (internal): every storage has an invariant and an
abstraction to the list of its entries (key, value, reference) in iteration
order; a record of laws relates every operation to that list (`Core`,
`MapLaws`, `SCore`, `SetLaws`, `it_laws`).  The laws are proved for each base
storage, shown to be preserved by `Option<_>`, by `unit_variants` (arrays and
bitsets) and by `any_variants`, and therefore hold for every `kty` by
induction (`derive_laws`).  The property theorems are then derived, stated only
with API functions and the vocabulary files.

| id | model | proof |
|---|---|---|
| C01 | calls as data (17 kinds), run from `Map::new` or any reachable map | simulation with a relational finite-map spec, induction on the history |
| C02–C05, C11, C14 | single operations on reachable maps | laws |
| C06 | order relation `key_before` of `Spec.v` | sortedness and `NoDup` by induction on `kty`; uniqueness of sorted listings |
| C07 | `keys()` | refuted for `()` leaves; partial for the others; exact for all |
| C08 | `values`, `into_iter` | laws |
| C09, C37 | call sequences `list dir` against a list deque; `size_hint` | simulation invariant for each iterator machine |
| C10 | references as paths | no duplicates, load/store laws, induction on writes |
| C12, C13 | stateful, possibly unwinding closures and destructors (`DiscardUnwind`) | induction along the entry list (`retain_list`) |
| C15–C18, C43 | entry and option buckets with error values, unwinding closures | case analysis and laws; error values unreachable |
| C19, C20, C22 | arbitrary value equality / clone / hash functions | induction |
| C21 | lexicographic spec on sequences | induction on arrays; order laws by induction on sequences |
| C23, C24 | folds of insert; serializer/visitor loops over arbitrary, failing inputs and sinks | induction |
| C25 | set history | simulation |
| C26 | result of `Set::insert` | refuted for `bool` and `Option::None` leaves; partial; exact |
| C27 | result of `Set::remove` | refuted for `bool` leaves; partial; exact |
| C28 | `len`/`is_empty` | `is_empty` refuted for `Option`; partial; exact |
| C29, C38 | `Set::retain`, returning and unwinding; `retain_undo` (Spec.v) says which rejected elements remain when the predicate unwinds, given which elements share a bit set (`one_bitset`) | refuted for `()` leaves; partial; exact for all key types, also in which element the predicate unwound (law `sc_retain`, `derive_late` by induction on `kty`) |
| C30, C31, C32 | iteration, intersection, equality | laws, induction on the iteration |
| C33 | ordering of sets | refuted for bitsets (integer comparison); partial for arrays; exact for bitsets; total order for both |
| C34 | two histories in lockstep | simulation; the unwinding case differs (`C34_unwind_refuted`) and is outside the statement |
| C35 | raw words and widths | bit lemmas |
| C36 | arbitrary raw words | refuted with stray bits; partial below `2^n`; exact for all |
| C39 | multisets as `Permutation` | from the laws |
| C40 | set and map histories | lockstep |
| C41 | front end | refuted (ignored attributes); partial; exact |
| C42 | `Set<()>` ordering | direct |
| C44 | `Debug` text with arbitrary key/value printers | induction on the iteration |
| C45 | hash-free keys | the state type has no redundancy: induction on `kty`; sets via `==` |
| C46 | two histories from equal contents | both simulate the same spec, which is deterministic up to order |
| C47 | `it_clone` of every iterator, at any reachable iterator state | each clone is the identity on the modelled state (`il_clone`, by induction on the key type); values cloned by `IntoIter` are taken as copies |
| C48 | clients of the safe bucket functions as lists of statements over any number of option variables (`BucketSpec.v`); statements the borrow checker would refuse are skipped | simulation with plain options: a held bucket of a kind implies an option of that kind |
| C49 | `FromIterator`, `into_iter`, `insert`, `remove` | from the laws: last-wins lookup, extensional equality |
| C50 | the `impl` blocks and `where` clauses as boolean functions on `kty` (`Avail.v`), linked to the records by `C50_operations` | induction on `kty` |
| C51 | `clear` with an arbitrary state-passing destructor that may unwind (`ms_clear_drop`): sequential assignments, whole-array assignment, hashbrown's guarded `clear` | every run equals a run of `retain` whose closure follows a list of fates (dropped, leaked, kept) of the right shape; induction on `kty` (`EffectProofs.v`). Which values are which (`ClearSpec.v`): the run also equals one of a closure that looks only at whether two keys are in one array or table (`ClearProofs.v`) |
| C52 | `clone` with an arbitrary state-passing `V::clone` that may unwind (`ms_clone_with`) | every run equals a run of `retain` that replaces values by their clones; induction on `kty` |
| C53 | key types outside Key.v: any `MapStorage` record satisfying the observational contract `acts_as_map` (ComposeSpec.v), put under `opt_map_storage` or into the fields of `any_map_storage` | each call on the composite equals a call on one part (`routes`), disjoint parts join (`join_keyed`, `join_whole`), induction over the variants; the contract itself is the induction hypothesis, no law records are used. ComposeSample.v has a storage the crate does not contain |
| C54 | element types outside Key.v: any `SetStorage` record satisfying the observational contract `acts_as_set` (ComposeSpec.v; `full` says whether the results of insert, remove and is_empty count), put under `opt_set_storage` or into the fields of `any_set_storage` | the contract call by call (`sfacts`) is equivalent to `acts_as_set`; disjoint parts join (`join_facts`); `None` and unit variants are one-flag parts; induction over the variants. `C54_option_contents_only` shows that for options nothing more holds over any type. ComposeSetSample.v has a storage the crate does not contain |
| C55 | key types with `hash_free`; `all_keys`, `card`, `entries_of`, `spec_listed` (FullSpec.v) are the specification | sortedness + completeness make the listing unique (`listing_unique`); programs by induction over the calls with the law records' visiting order |
| C56 | any two storages satisfying `acts_as_map`/`acts_as_set` (C53, C54), hence all of Key.v; `ren_op`, `ren_obs` (RenameSpec.v) translate programs and results | the specification of a call is transported along the bijection (`ren_spec`, `ren_sspec`), then two runs meeting the same specification agree (`spec_ops_same`, `spec_listed_det`). Exact results for sets require retain predicates that return or key types that agree on which keys share a bit set (C38) |
| C57 | the scopes of the generated code (Names.v): for every region its type parameters, whether the enum's name and the field types occur, the types, constructors and variables it mentions; lookup of names at the place of the derive | refuted (four witnesses: enum `V`, field type `V`, constant `value`, doc comment on a field); exact: the names in generated code mean what they should iff the program keeps clear of the lists in NamesSpec.v; the lists are checked against all regions in both directions |
| C58 | `==` with an arbitrary state-passing `V::eq` that may answer anything and unwind (`ms_eq_with`); maps are taken by shared reference, so they cannot change | the calls of each storage are those of its parts one after the other (`seq_compares`); hash tables by counting keys; induction on `kty` |
| C59 | `partial_cmp`, `cmp` and `hash` with arbitrary state-passing functions of `V` (and of the hasher) that may unwind (`ms_partial_cmp_with`, `ms_cmp_with`, `ms_hash_with`) | the flattened arrays are the iteration lists with variant numbers; induction on the lists |
| C60 | the templates of `unit_variants.rs` as syntax trees (`UnitCode.v`: `map_code`, `set_code`, `bitset_code`, `entry_code`, functions of the list of names), run by an interpreter for the fragment of Rust they use (`Rust.v`: places and references, `let [..] = &mut self.data`, `match`, closures of `retain`, unwinding and drops); the reference maps and sets of names are in `CodeSpec.v` | symbolic execution of every method for an arbitrary list of names, by induction on it; then the storages of `DeriveUnit.v` are shown to answer as the reference does |
| C61 | the templates of `any_variants.rs` as syntax trees (`AnyCode.v`: `any_map_code`, `any_set_code`, `iter_code`, `any_entry_code`, functions of the list of variants), run by the interpreter `Rust.v` with the calls to other storages answered by the `MapStorage` and `SetStorage` of the element type (`AnyRun.v`); requests and responses of the code and of the storages of `DeriveAny.v` are in `AnyCodeSpec.v` | symbolic execution of every method for an arbitrary list of variants, by induction on it; for the iterators a relation between the struct with its step counters and the state of the model's iterator, kept by `next`, `next_back` and `clone`; then by induction on the requests. `AnyRetains.v` shows that all derived storages have the property assumed of element types, and that every enum arises |
| C62 | the code of C61 over the storages of all derived key types; a map is a list of entries and a set a list of elements, with a relation that says for each request what may be answered and what the list becomes (`AnyRefSpec.v`, which knows nothing of storages) | C61 with the laws of the storages (`MapLaws.v`, `SetLaws.v`, `EffectProofs.v`, `ClearProofs.v`): every request keeps the invariant and is allowed by the relation; `C62_map_refuses` and `C62_set_refuses` show the relation rejecting wrong answers |
| C63 | the loops of `from_iter`, `visit_map` and `visit_seq` with a source that passes a state, fails or panics, the destructor of displaced values, the drop of an abandoned map, and the choice of the visitor's method by the deserializer (`Sources.v`); the same on finite maps as a relation (`SourceSpec.v`) | induction on the rounds of the loop, with the laws of `insert`; termination by induction on the derivation that the source ends; `C63_pure` connects it with the `from_iter` of C23 |
| C64 | an interpreter for programs over map variables, on top of the functions of `Api.v`, with the user's functions passing a state and panicking, drop glue and aborts (`Program.v`); the same on lists of entries as a relation, and a book kept by the user's functions of all values made and taken (`ProgramSpec.v`) | simulation: each statement keeps the relation between storages and lists (`ProgramProofs.v`), from the laws of C01 to C16 and the theorems C51, C58 and C66; conservation is proved on the relation, statement by statement, and carried over (`ProgramLedger.v`, `ProgramMain.v`) |
| C65 | `Debug` with arbitrary sinks (`out W`), user code as trees of writes that see whether a write failed (`script`), the builders of `core::fmt` including `PadAdapter`, sticky results and assertions (`Fmt.v`); layouts as lists of blocks performed until one fails, and their text (`FmtSpec.v`) | simulation of the builders by the layout, induction on the iteration (`FmtProofs.v`); the text of a layout by an invariant on sink and adapter state, for the plain and the indented mode at once (`FmtText.v`) |
| C66 | the compiler-generated drops: of cells, pairs, arrays, structs field by field, `slice::IntoIter`, `option::IntoIter`, `Chain`, `FlatMap` and hashbrown's table and `RawIntoIter` (whose guard frees the table but drops no further entry) (`it_drop` in `Std.v`, `ms_drop` in `Traits.v` and the storages); clones that are dropped in reverse order of the fields when a later one unwinds (`ms_clone_undo`); the count of panics until an abort (`counted`, `Sources.v`). Specification: `DropSpec.v` | a law of owning iterators (`drop_laws`, `DropLaws.v`) saying exactly which entries are left out, kept by every adapter; clones by induction on `kty` (`CloneUndo.v`); put together in `DropProofs.v`, `DropMain.v` |
| C67 | an interpreter for programs over set variables, on top of the functions of `Api.v`, with a predicate of `retain` that passes a state and may unwind (`SetProgram.v`); the same as a relation on lists of elements with stray bits beside them, which does not mention storages (`SetProgramSpec.v`) | simulation (`SetProgramProofs.v`) from laws that are proved twice: for reachable sets of all other key types, from the laws of C18 to C38, and for every integer of a bit set (`SetProgramMain.v`); that the relation leaves no choice without hash tables, and the choice of `#[key(bitset)]` from that (`SetProgramUnique.v`) |
| C68 | the files themselves, line by line (`SrcText.v`, compared with /repo by `tools/check_text.py`), a lexer, a parser and a big-step interpreter with a store for the fragment of Rust they are written in (`SrcLex.v`, `SrcParse.v`, `SrcRun.v`), the parts of `core` and hashbrown's entries that they call, in the same language (`SrcStd.v`); requests to a storage, put to the text and to the model (`SrcSpec.v`, `SrcFiles.v`, `SrcWhole.v`) | for each file, the parsed program is computed once, and each request is run symbolically: a simulation between values of the interpreter and states of the model's storage, by cases on the request and by induction over what is asked of iterators (`SrcBool.v`, `SrcSingle.v`, `SrcSets.v`, `SrcOption.v`, `SrcOption2.v`, `SrcHash.v`, `SrcSets2.v`; inner storages and hash tables are foreign objects whose answers are those of the model); no bad answers from the storage laws (`SrcSound.v`); lists of entries from C64 and C67 (`SrcMain.v`) |
| C69 | the files of the macro, line by line (`DeriveText.v`, compared with /repo by `tools/check_text.py`); token trees, `quote!` and the statements of the macro's functions, run on an enum whose variants are not known: a repetition is one piece for a unit variant and one for a tuple variant (`DeriveQuote.v`); a parser of the tokens that come out (`DeriveRead.v`); what they are for given variants, as programs of `Rust.v` (`DeriveInst.v`, `DeriveCode.v`) | the items of the three kinds of enum are computed (`DeriveItems.v`); instantiating them gives the codes of `UnitCode.v` and `AnyCode.v`, by computation with the list of variants left open and lemmas that a piece per variant is what `each`, `map` and `combine` make (`DeriveEqual.v`); behaviour from C60 and C61 (`DeriveMain.v`) |
| C70 | the four files, line by line (`SrcText.v`), run by the interpreter of C68 around a storage that answers as a record of the model (`SrcFront.v`, `SrcFrontSetSpec.v`: what is asked, how the program is called, the answers of `Api.v`); the interpreter drops the variables of one round of a loop before the next round | the interpreter computes each call with the storage and the user left open (`SrcFrontMap.v`, `SrcFrontEntry.v`, `SrcFrontWhole.v`, `SrcFrontSet.v`); the loops of `from_iter`, `Intersection::next` and `fold` by induction over what the iterators still hold (`SrcFrontLoop.v`, `SrcFrontSetLoop.v`); that no answer is undefined behaviour from the laws of derived storages (`SrcFrontSound.v`, `SrcFrontMain.v`) |
| C71 | the same files; items inside functions (the visitors of `deserialize`) are lifted to the file; the serializer, the deserializer with its access object and the formatter with its builders are surroundings that answer as in `Api.v` and `Fmt.v` (`SrcFrontSerde.v`); what a `Deserializer` does with a visitor is to call its `visit_map` or `visit_seq` once, by running the text | the interpreter computes each round of the loops with storage and surroundings left open; the loops by induction over the rounds of the model (`SrcFrontSerdeProofs.v`); round trip, errors and layout from C24 and C65 |
| C72 | src/macro_support.rs, line by line (`SrcText.v`), run by the interpreter of C68 (`SrcSupport.v`); slices, `enumerate`, `filter_map`, `filter` and the comparison of iterators are the standard library's, as lists; `flatten` and `filter_bool` are run as text for every element | the interpreter computes the seven calls of each function and each case of `flatten` and `filter_bool` (`SrcSupportProofs.v`); the positions (`SrcSupportSpec.v`) by induction over the common beginning (`SrcSupportFacts.v`) |
| C73 | the items that the text of the macro writes (C69): the impls of traits there are and the traits in the attribute `derive` of the macro's text (`traits_of`); the impls that hand `self.data` on are run (`trait_call`, `DeriveTraits.v`), with the standard library's traits of arrays as lists and with the text of src/macro_support.rs (C72) | computing the items and the traits; arrays against lists by induction; then C72 (`DeriveTraitsProofs.v`). Where clauses of the impls are not read |
| C74 | src/key.rs, line by line (`KeyText.v`, compared with /repo by `tools/check_text.py`), read as token trees; `macro_rules!` and `cfg(feature)`; names of storages stand for the storages of the model (`KeyRead.v`) | the impls are computed; induction over key types (`KeyReadProofs.v`). Generated storages are those of C69 |
| C75 | attrs.rs and symbol.rs, line by line (`AttrText.v`, compared with /repo by `tools/check_text.py`), lib.rs:39-45 and 50-73 (`DeriveText.v`), run by an evaluator of the expressions that occur there (`AttrRun.v`); the generators are those of the model, their code is the subject of C69 and C73 | induction over attributes, items and variants (`AttrProofs.v`) |

### Disagreements between code and documentation

Found while proving; each has a `_refuted` theorem with a concrete witness, a
`_partial` theorem under the weakest natural guard, and an `_exact` theorem that
says what the code does for every key type.

1. C07: `Map<(), V>::keys()` yields `()` even when the map is empty
   (`src/map/storage/singleton.rs`, `keys`).
2. C26: `Set<bool>::insert` returns true iff the value was already present
   (`src/set/storage/boolean.rs`, `insert`).
3. C27: `Set<bool>::remove` returns true if the *other* value is present
   (`src/set/storage/boolean.rs`, `remove`).
4. C28: `Set<Option<K>>::is_empty` lacks a negation: it demands that `None` is
   present (`src/set/storage/option.rs`, `is_empty`).
5. C26: `Set<Option<K>>::insert(None)` returns true iff `None` was already
   present (`src/set/storage/option.rs`, `insert`).
6. C29/C38: `Set<()>::retain` calls the predicate even if `()` is absent and
   inserts it when accepted (`src/set/storage/singleton.rs`, `retain`).
7. C33: `#[key(bitset)]` sets compare as integers, so the highest differing
   variant decides, not the lexicographic order of the elements
   (`unit_variants.rs`, `impl_bitset`).
8. C36: `Set::from_raw` keeps bits that belong to no variant: `len`, `is_empty`
   and `==` then disagree with iteration (`unit_variants.rs`, `RawStorage`).
9. C41: an unknown `#[key(..)]` attribute is recorded as an error that is then
   dropped; `#[key(bitset)]` on an enum with tuple variants is ignored; a
   variant `A()` panics the macro; variants with named or several fields record
   a dropped error and fail later, in the compiler, with a non-exhaustive
   match (`attrs.rs`, `lib.rs`, `any_variants.rs`, `context.rs`).
10. C34: when a retain predicate unwinds, bitset and array sets keep different
    elements (`C34_unwind_refuted`).
11. C57: the derive is not hygienic.  An enum or field type called `V`, `F`,
    `VacantEntry`, `OccupiedEntry`, `__MapStorage`, ... clashes with generated
    names; bare `Option`, `Clone`, `FnMut`, `Some`, `None` are captured by what
    the user has in scope; a constant called like a generated variable turns a
    binding into a constant pattern; an attribute or doc comment on a field is
    pasted into type position (`any_variants.rs`: `element: &syn::Field`).

## 5. Trusted base

* The Coq 8.16.1 kernel (including its virtual machine, used by `vm_compute` in
  some examples).
* Axioms: none.  `Print Assumptions` after each property theorem prints
  "Closed under the global context" (section 6).  No `Axiom`, `Parameter`,
  `Admitted`, section-less `Variable`/`Hypothesis`, functor or module type is
  used, no kernel check is switched off.  (`coqchk -o` lists the constants of
  `Coq.ssr.ssrunder.Under_rel`: they belong to a module type of the Coq
  distribution that is loaded with the standard library's `Lia`/`Setoid`
  machinery and no theorem depends on them.)
* The faithfulness of the model to the cited Rust lines, and the std, hashbrown
  and `syn` behaviour listed in section 2.

Every definition of the model files cites the file and lines it models, and
states its simplifications in that comment.
* For C68: that `SrcText.v` is the text of the files (`tools/check_text.py` compares
  them); that `SrcLex.v`, `SrcParse.v` and `SrcRun.v` give that text the meaning rustc
  gives it (the interpreter is untyped: methods are chosen by the type of the value,
  places of moved values are not cleared, locals are not dropped at the end of a scope
  because they own nothing with a destructor there); that `SrcStd.v` says what `core`
  does.  The storage inside `OptionMapStorage`, and the hash table inside
  `HashbrownMapStorage`, answer as those of the model.
* For C69: that `DeriveText.v` is the text of the files (`tools/check_text.py`); that
  `DeriveQuote.v` runs the functions of the macro as rustc and the crates `quote`, `syn`
  and `proc_macro2` would.  It knows the shapes of statements that occur in the files and
  answers `None` for anything else.  Stated by hand there: `build_tuple_struct_pat`,
  `is_all_unit_variants`, the methods of `Fields` (`names`, `complex`, `iter`, `len`), that
  variant number `i` has the field `_i`, that `1u128 << n` is the literal of variant `n`.
  Attributes, visibilities, generic arguments and where clauses of the generated items are
  skipped; `DeriveInst.v` says which operation of `Rust.v` each path (`prims`, `foreign`)
  is.  `attrs.rs` is not read (C41 and C57 model it).
* For C70: what is said for C68.  The storage inside the `Map` or `Set`, its entries and
  iterators answer as the record of the model does.  The iterator that `from_iter` is given
  yields the pairs of a list and then ends.  `Iterator::fold` of `Intersection` is the
  default method of `core`, written in `SrcStd.v` as a loop.  An array gives
  its elements in order.
* For C71: what is said for C70.  Calls to the serializer, to the map or sequence being
  written, to the input and to the formatter are answered by the model of these
  (`serializer`, `access`, the builders of `Fmt.v`); errors are kept by the surroundings, so
  that `From::from` of `?` is the identity, as it is when the two error types are equal.
  `expecting` of the visitors (the text of an error message) is not called by the model.
* For C72: what is said for C68.  The adapters of iterators are lists; the functions given
  to them are run before the comparison begins, which cannot be seen, as they have no
  effects.
* For C73: what is said for C69 and C72; `Clone`, `PartialEq` and `Hash` of arrays and the
  order of integers are the standard library's (`map_lib`, `bits_lib`); what `derive` of
  the standard library writes for the two set storages (unit_variants.rs:422, 589) is the
  model's (`DeriveUnit.v`), only the list of traits is read; `where` clauses are not read.
* For C74: that `KeyText.v` is the text of the file; that a name such as
  `BooleanMapStorage` means the storage of that name (`map_named`, `set_named`), whose own
  text is the subject of C68; `macro_rules!` with one rule and one parameter, and
  `cfg(feature = ..)`, as in `rows`.
* For C75: that `AttrText.v` is the text of the files; `syn` as in `AttrRun.v`: an attribute
  is a path and perhaps a list of items, `parse_nested_meta` gives the closure one item after
  the other and refuses items without a path and tokens left over; that a path equals a
  `Symbol` if it is that one word (symbol.rs:11-33); that `Ctxt` keeps errors in order
  (context.rs). Not run as text: lib.rs:31-37 (building the context), lib.rs:46-47 (errors
  to `compile_error!`), context.rs, the choice of errors inside the two `implement`.

## 6. Assumptions per theorem

`Print Assumptions` reports "Closed under the global context" for each of:

* C01: `C01_map_history`, `C01_map_history_from`
* C02: `C02_insert`
* C03: `C03_remove`
* C04: `C04_lookup_agrees`
* C05: `C05_len`
* C06: `C06_iter_order`, `C06_iter_history_free`
* C07: `C07_keys_refuted`, `C07_keys_partial`, `C07_keys_exact`
* C08: `C08_values_into_iter`
* C09: `C09_map_iterators`, `C09_set_iterators`, `C09_double_ended`
* C10: `C10_iter_mut`
* C11: `C11_get_mut`
* C12: `C12_retain`
* C13: `C13_retain_unwind`
* C14: `C14_map_empty`, `C14_set_empty`
* C15: `C15_entry`
* C16: `C16_or_insert`, `C16_or_insert_with`, `C16_or_insert_with_key`, `C16_or_default`, `C16_and_modify`
* C17: `C17_occupied`, `C17_vacant`
* C18: `C18_entry_programs`
* C19: `C19_map_eq`, `C19_map_eq_equivalence`
* C20: `C20_map_clone`, `C20_map_clone_eq`, `C20_map_clone_history`, `C20_set_clone`, `C20_set_clone_history`
* C21: `C21_map_ordered_keys`, `C21_map_partial_cmp`, `C21_map_cmp`, `C21_map_partial_order`, `C21_map_total_order`, `C21_map_cmp_agree`, `C21_map_operators`, `C21_map_selectors`
* C22: `C22_map_hash`, `C22_set_hash`, `C22_hash_keys`
* C23: `C23_map_from_iter`, `C23_set_from_iter`
* C24: `C24_map_serialize`, `C24_map_deserialize`, `C24_map_deserialize_error`, `C24_map_roundtrip`, `C24_set_serialize`, `C24_set_deserialize`, `C24_set_deserialize_error`, `C24_set_roundtrip`
* C25: `C25_set_history`, `C25_set_history_from`, `C25_set_history_documented`, `C25_set_history_exact`
* C26: `C26_insert_refuted`, `C26_insert_none_refuted`, `C26_insert_partial`, `C26_insert_exact`
* C27: `C27_remove_refuted`, `C27_remove_partial`, `C27_remove_exact`
* C28: `C28_set_len`, `C28_is_empty_refuted`, `C28_is_empty_partial`, `C28_is_empty_exact`
* C29: `C29_retain_refuted`, `C29_retain_partial`, `C29_retain_exact`
* C30: `C30_set_iter`, `C30_set_iter_history_free`
* C31: `C31_intersection`, `C31_intersection_symmetric`
* C32: `C32_set_eq`
* C33: `C33_set_ordered_keys`, `C33_set_total_order`, `C33_set_cmp_refuted`, `C33_set_cmp_partial`, `C33_set_cmp_exact`
* C34: `C34_bitset_same_as_array`, `C34_bitset_same_as_array_two`, `C34_unwind_refuted`
* C35: `C35_raw_keys`, `C35_raw_encoding`, `C35_raw_roundtrip`, `C35_raw_width`, `C35_raw_limit`
* C36: `C36_from_raw_refuted`, `C36_from_raw_partial`, `C36_from_raw_exact`, `C36_operations_exact`
* C37: `C37_map_hints`, `C37_set_hints`, `C37_bool_exact`, `C37_option_hash_exact`
* C38: `C38_retain_unwind_refuted`, `C38_retain_unwind_partial`, `C38_retain_unwind_exact`
* C39: `C39_insert`, `C39_remove`, `C39_occupied_insert`, `C39_occupied_remove`, `C39_vacant_insert`, `C39_retain`, `C39_into_iter`
* C40: `C40_set_as_map_keys`
* C41: `C41_accepts`, `C41_attribute_refuted`, `C41_bitset_refuted`, `C41_rejects_partial`, `C41_accepts_exact`, `C41_rejects_exact`
* C42: `C42_unit_set_order`
* C43: `C43_entry_unwind`
* C44: `C44_map_debug`, `C44_set_debug`, `C44_intersection_debug`
* C45: `C45_map_canonical`, `C45_set_canonical`
* C46: `C46_map_interchange`, `C46_set_interchange`
* C47: `C47_map_clones`, `C47_set_clones`, `C47_intersection_clone`
* C48: `C48_buckets`
* C49: `C49_map_order`, `C49_set_order`, `C49_map_rebuild`, `C49_set_rebuild`, `C49_insert_undo`, `C49_remove_undo`
* C50: `C50_map_traits`, `C50_set_traits`, `C50_unit_copy`, `C50_bodies_typed`, `C50_supertraits`, `C50_into_iter_clone`, `C50_operations`, `C50_copy_is_clone`
* C51: `C51_clear_drops`, `C51_clear_exact`
* C52: `C52_clone_calls`, `C52_pure`
* C53: `C53_option`, `C53_enum`, `C53_builtin`, `C53_history`
* C54: `C54_enum`, `C54_option`, `C54_option_contents_only`, `C54_builtin`, `C54_history`
* C55: `C55_all_keys`, `C55_map_listing`, `C55_set_listing`, `C55_map_bound`, `C55_set_bound`, `C55_map_program`, `C55_set_program`
* C56: `C56_map`, `C56_map_any`, `C56_set_any`, `C56_set`, `C56_map_ordered`, `C56_set_ordered`
* C57: `C57_refuted`, `C57_exact`, `C57_partial`
* C58: `C58_eq_calls`, `C58_pure`
* C59: `C59_partial_cmp_calls`, `C59_cmp_calls`, `C59_hash_calls`, `C59_pure`
* C60: `C60_generated`, `C60_raw`, `C60_refused`, `C60_modelled`
* C61: `C61_map`, `C61_set`, `C61_map_eq`, `C61_set_eq`, `C61_enum`
* C62: `C62_map`, `C62_set`
* C63: `C63_map`, `C63_map_returns`, `C63_set`, `C63_set_returns`, `C63_pure`, `C63_map_deserialize`, `C63_set_deserialize`
* C64: `C64_program`, `C64_ledger`, `C64_nothing_left`
* C65: `C65_map`, `C65_set`, `C65_intersection`, `C65_map_text`, `C65_set_text`, `C65_intersection_text`
* C66: `C66_map`, `C66_into_iter`, `C66_all_dropped`, `C66_clone`
* C67: `C67_program`, `C67_answers`, `C67_determined`, `C67_bitset_choice`
* C68: `C68_map`, `C68_map_eq`, `C68_set`, `C68_set_eq`, `C68_option_any`, `C68_hash_any`, `C68_sound`, `C68_set_sound`, `C68_lists`, `C68_set_lists`
* C69: `C69_unit`, `C69_raw`, `C69_refused`, `C69_any`, `C69_transcribed`
* C70: `C70_map`, `C70_map_eq`, `C70_sound`, `C70_map_any`, `C70_map_default`, `C70_map_from_iter`, `C70_map_order`, `C70_set`, `C70_set_eq`, `C70_set_any`, `C70_set_default`, `C70_set_from_iter`, `C70_set_from_array`, `C70_set_order`, `C70_set_raw`, `C70_intersection`, `C70_intersection_elements`
* C71: `C71_map_serialize`, `C71_set_serialize`, `C71_map_deserialize`, `C71_set_deserialize`, `C71_map_debug`, `C71_set_debug`, `C71_intersection_debug`, `C71_map_writes`, `C71_set_writes`, `C71_map_round_trip`, `C71_set_round_trip`, `C71_map_error`, `C71_set_error`, `C71_map_prints`, `C71_set_prints`
* C72: `C72_partial_cmp`, `C72_cmp`, `C72_partial_cmp_bool`, `C72_cmp_bool`, `C72_order`, `C72_order_one`, `C72_set_order`, `C72_maps`, `C72_sets`
* C73: `C73_traits`, `C73_unit_kinds`, `C73_any_kinds`, `C73_clone`, `C73_eq`, `C73_hash`, `C73_partial_cmp`, `C73_cmp`, `C73_sets`, `C73_bitsets`, `C73_equal`, `C73_order`, `C73_set_order`
* C74: `C74_storages`, `C74_without_hashbrown`, `C74_types`, `C74_once`
* C75: `C75_derive`, `C75_bitset`, `C75_no_errors`, `C75_errors`, `C75_not_enum`, `C75_unit`

## 7. Seeded bugs

`seeded/LOG.jsonl` records, one JSON object per line, realistic bugs seeded into
a scratch copy of the model (definition edited, edit, claim broken), the lemmas
and property theorems that fail to prove because of it, and what was tightened
as a result.  A theorem is listed as failed if its proof, directly or through
the lemmas it uses, no longer goes through.  That list is an over-approximation:
one failed lemma about a storage counts against every theorem that uses the laws
of that storage; `proofs_failed` names the lemmas that failed themselves.
