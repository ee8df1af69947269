# ordinal-map: formal model and proofs in Rocq (Coq 8.16.1)

This file is the plan and the trusted-base statement. `properties.jsonl` holds the
English properties (C01...), `MANIFEST.json` the theorems that settle them.

## 1. Modelling decisions

* **Outcomes.** Every modelled function returns `res A` (theories/Base.v):
  `Val a`, `Panic why` (a Rust panic), `NoCompile` (a compile-time error: failed
  `const` evaluation, failed `assert!` in a const, ill-typed generated code), `UB`
  (undefined behaviour in an `unsafe` block) or `OutOfFuel` (loop bound exhausted; theorems always
  conclude `Val`, so it is excluded).
* **Platform.** `Config` = pointer width (32 or 64), `overflow_checks`,
  `debug_assertions`. All theorems quantify over it. 16-bit targets are excluded
  (the crate has literals that do not fit a 16-bit usize).
* **usize / u64** are `N`; run-time `+ - *` panic or wrap according to
  `overflow_checks`, const-context overflow is `NoCompile`. Bounded integers are
  records `int lo hi` (a `Z` with a boolean range proof), `char` likewise, so a
  Rust type is exactly a Coq type and "for all keys" is `forall k : K`.
* **Ordinal trait** = record `Ordinal T` (`ORDINAL_SIZE`, `ordinal`, `from_ordinal`).
  A const mentioned in a function body is evaluated first (a monomorphised
  function whose constants fail to evaluate does not compile even if the branch is dead).
  The functions called on a branch that a run does not take are not looked at there; ModelMono.v
  does that (C79), and ModelUse.v for the operations of the collections (C81).
* **Slices, Vec, Box<[T]>, arrays** are lists. `&mut` references handed out by
  iterators/entries are slot indices into the storage list.
  `slice::Iter`, `vec::IntoIter`, `array::IntoIter` are the list of remaining items
  (std's double-ended contract is trusted).
* **FnMut callbacks** are state-passing functions over an arbitrary state type that may
  also panic where that matters.
* **derive macro**: the generator is modelled as a generator: declaration -> `SizeExpr`
  -> Rust expression/statement AST -> evaluator with usize semantics.

## 2. Files

All under `rocq/theories`. Model files hold definitions only, each with a comment citing the
lines of /repo it follows; Spec files hold the vocabulary of the statements; Prop files hold the
property theorems (each closed by `exact`), their `Print Assumptions` and examples; everything
else holds lemmas.

| file | content |
|---|---|
| Base.v | outcomes, config, usize/u64 arithmetic, bounded ints, list helpers |
| Spec.v | `Ordinal`, the laws (`ordinal_bijection`, `rejects_out_of_range`, `lawful`), enumerations, mixed radix |
| ModelOrdinal.v | ordinal/traits.rs and the impls of ordinal/impls for std types |
| ModelArrayBuilder.v | array_builder.rs (per-cell initialisation and a log of drops), array_from_iter.rs, array_as_mut.rs, the impl for `[T; N]` |
| ModelDerive.v, ModelSite.v | ordinal-map-derive; the same at a site with other names in scope |
| ModelUniverse.v | closed universe of type expressions over all impls and derives |
| ModelMono.v | which constants are evaluated when `ordinal` and `from_ordinal` of a type are instantiated |
| ModelUse.v | what is instantiated on the key type by each operation of a collection, and programs that are built and run |
| ModelResume.v | the iterators of values.rs, set64.rs, enumerate.rs and map/iter.rs with the state they are in after a panic |
| ModelNominal.v | declared types by name: parameters, bounds, trait selection, and how deep constants are evaluated |
| ModelUnwind.v | IterMut after a panic; Drain, its destructor and clear when `from_ordinal` panics |
| ModelCalls.v | the functions that call user code again, as dialogues with user code that has a state |
| ModelTests.v | the tests (tests/**, the `tests` modules) and the documentation's examples |
| ModelValues.v, ModelAtomic.v, ModelGraph.v | values.rs; atomic.rs with SC and weak-memory machines; threads over several AtomicOrdinals as graphs of events |
| ModelFmt.v | the Debug impls down to the strings they write, with the builders of core::fmt |
| ModelIter.v, ModelTotal.v, ModelMap.v | map/** |
| ModelSet.v | set/** |
| ModelClone.v | `clone` and `default` again, with implementations for the values that have effects and may panic |
| ModelCost.v | the maps, sets and iterators again, counting steps |
| ModelCatch.v | the operations of maps and sets again, with the object left behind when a call panics |
| ModelLife.v | the maps again, from beginning to end, with a log of the destructors started, which may panic |
| ModelKeyLife.v | the two partial maps again, with keys that have destructors, too |
| ModelSetLife.v | the three sets, with elements that have destructors |
| ModelKeyEnds.v | total maps, collecting and owning iterators, with keys and values that have destructors |
| ModelKeyMake.v | making and mapping total maps, with callbacks and destructors that panic |
| ModelAtomicLife.v | AtomicOrdinal with values that have destructors |
| ModelDeriveLife.v, ModelArrayLife.v, ModelPartsLife.v | `from_ordinal` of generated impls and of arrays, with fields and elements that have destructors, and whose own `from_ordinal` is arbitrary code |
| ModelType.v | the fields of all types; auto traits and subtyping |
| ModelOverride.v | the callers of `all_values` again, for implementations that override it |
| ModelAlloc.v | the functions that allocate again, with an allocator that may refuse |
| ModelDrop.v | drops and `from_iter` again, with destructors and iterators that have effects and may panic |
| ModelStd.v | the provided iterator methods of std that the crate's iterators inherit |
| SpecDerive/SpecUniverse/SpecCompat/SpecFold/SpecExpand/SpecSite/SpecMono/SpecResume/SpecCalls/SpecTests.v | numbering, universe, compatibility, folding, expansion, surroundings of derives, instantiation, caught panics, calls of user code, tests |
| SpecIter/SpecMap/SpecTotal/SpecApi/SpecSet/SpecRound/SpecStd/SpecValues.v | iterators, maps, sets |
| SpecMem/SpecDrop/SpecSafety/SpecAtomic/SpecAtomicAny/SpecGraph/SpecFmt/SpecClone/SpecCatch/SpecOverride/SpecAlloc/SpecTarget/SpecSource/SpecLedger/SpecType/SpecBuild/SpecLife/SpecLifeRun/SpecLifeEnds/SpecKeyLife/SpecSetLife/SpecKeyEnds/SpecKeyMake/SpecAtomicLife/SpecDeriveLife/SpecArrayLife/SpecPartsLife.v | ownership accounting, destructors, absence of UB, atomic register, executions under any memory model, texts, clones, programs that catch panics, ranges of ordinals, allocators, the same value on two targets, what a caller's iterator yields, accounts of values, what types hold, two builds of one program, accounts of destructors, what programs see of them |
| MapMachine/TotalMachine/SetMachine.v | programs of operations on the modelled collections |
| IterLib/MapLib/BitProofs.v, *Proofs*.v | lemmas |
| PropOrdinal, PropDerive, PropUniverse, PropCompat, PropFold, PropSite, PropExpand | C01-C19, C67, C68, C71-C74 |
| PropValues, PropAtomic, PropMap, PropTotal, PropMem, PropSet | C20-C63 |
| PropExact | for the false statements: which inputs fail, and how |
| PropSafety, PropStd, PropRound | C64; C65, C66; C69, C70 |
| PropSetAlloc, PropSorted, PropDrop, PropMono, PropResume, PropUse, PropUnwind, PropNominal, PropCalls, PropTests, PropPartial, PropGraph, PropFmt, PropClone, PropCost, PropCatch, PropOverride, PropAlloc, PropTarget, PropSource, PropLedger, PropType, PropBuild, PropLife, PropLifeRun, PropLifeEnds, PropKeyLife, PropAtomicAny, PropSetLife, PropKeyEnds, PropKeyMake, PropAtomicLife, PropDeriveLife, PropArrayLife, PropPartsLife | C75; C76; C77, C78; C79; C80; C81; C82 (and C80 for IterMut); C83, C84; C85-C87; C88-C90; C91; C92; C93; C94; C95; C96; C97; C98; C99, C100; C101; C102; C103, C104, C106; C105; C107, C108; C109; C110; C111; C112; C113; C114; C115; C116; C117; C118; C119 |

## 3. Plan per property

* C01-C07: unfold the impl, reduce to linear integer arithmetic; 'law' = `ordinal_bijection`
  plus `rejects_out_of_range` of Spec.v. C04 is expected to be false on 64-bit
  (`ordinal as u32` truncates): refute, prove below 2^32 and on 32-bit.
* C08: induction over the array length on mixed-radix numbers; drop-tracking ArrayBuilder.
* C09-C12: induction over field list/variant list through the generated AST; intermediate
  values bounded by the total, so no overflow.
* C13-C18: closed universe of type expressions, structural induction. C15 is expected
  false (overflowing prefix product times zero), C16 expected false (Option/array do not
  touch ORDINAL_SIZE in `ordinal`): refute, prove the parts that hold.
* C19: name-resolution model of the generated statements; expected false for a field
  called `rem`; prove for every other name.
* C20-C22: range iterator refines a deque on the enumeration of all values.
* C23-C25: interleaving machine for SC, and an over-approximating machine in which a read may return
  any earlier write.
* C26-C40: storage-list model, abstraction to `K -> option V`; refinement by induction
  over operation lists; iterators refine the deque on the sorted entry list.
  C27 expected false (`get(..).is_some()` on the slot): refute, prove one direction.
* C41-C48: total maps, same method. C44 expected false (no assertion in from_array),
  C46 expected false for total::IntoIterArray (size_hint not overridden).
* C49: builder with per-cell initialisation state and a drop log.
* C50-C61: word-list model with N.testbit; C55 expected false at 64, C58 for empty types
  with debug assertions, C59 near usize::MAX.
* C62: Debug helpers as structured output (entry list); the text is C93.
* C63: step counting on the machines of C23/C24.
* C64: every function of the crate for an arbitrary impl record, per state; and whole programs in
  which each operation may use a different impl.
* C65/C66: values.rs for arbitrary impls; default methods of std over any iterator that satisfies
  `double_ended`.
* C67-C119: see the headers of the Prop files.

A property whose literal statement is false has a `_refuted` theorem with a counterexample,
`_partial` theorems for what does hold (normally the exact set of failing inputs), and status
`partial` with a note.

## 4. Trusted base

1. **Coq's kernel** (8.16.1), including its `vm_compute` machine, used in examples and for concrete
   counterexamples. No native compilation, no plugins, no extraction.
2. **Axioms.** `Print Assumptions` reports "Closed under the global context" for every property
   theorem. There is no `Axiom`, `Parameter`, `Admitted` or section-less `Variable` in the files.
   A listing of the axioms of every loaded library module also names the seven opaque constants
   `Coq.ssr.ssrunder.Under_rel.*`; they come with the stdlib module loaded by `lia`'s
   dependencies and no theorem uses them.
3. **That the model is the code.** The following is modelled, function by function: all of
   ordinal-map/src with its tests and examples, except module declarations, re-exports, other doc
   comments and attributes, and all of ordinal-map-derive/src/ordinal.rs (lib.rs only wraps it). What a model definition leaves
   out is said in its comment.
4. **What is assumed of Rust and its standard library** (contracts, not modelled code):
   * integer arithmetic, shifts, `checked_*`, `div_ceil`, `trailing_zeros`, `leading_zeros`,
     `count_ones`, `char::from_u32`, conversions with `as`, as defined in Base.v and ModelSet.v;
     `match`, `?`, loops, `for` over `Range`;
   * const evaluation: a constant mentioned in a function that is used is evaluated, the functions
     mentioned there are used, too (C79), a constant that needs itself is an error (C84), and overflow or a failed `assert!` there is a compile error; `Self::X` prefers variants, then inherent
     constants; patterns do not shadow constants; identifiers of the macro have call-site hygiene;
   * generic impls are checked once, with the bounds that are written (C83); a panic that leaves a
     destructor during unwinding aborts the process (C82, C107-C111, C113-C119);
     local variables are destroyed in the reverse order of their declaration (C117);
   * drop glue: what a function owns is destroyed when it returns or panics; the elements of a slice,
     vector or array are destroyed from the front, after a panic the others while unwinding; an
     assignment `*x = v` destroys the old value and stores `v` also if that panics (C77, C107-C111, C113-C116);
     a function destroys its arguments in reverse order; whether the result is destroyed when one of
     those destructors panics differs between versions of rustc, so C111 and C114-C116 have both;
   * `Vec`, `Box<[T]>`, slices, arrays and their (double-ended, fused) iterators are lists; the
     bodies of the provided `Iterator` methods are those of ModelStd.v;
   * C62 is about the entries given to `fmt::DebugList/DebugMap/DebugSet`; C93 about the strings
     these write, with `DebugInner`, `DebugMap`, `DebugTuple` and `PadAdapter` as in ModelFmt.v
     (written from the documentation and knowledge of core::fmt, which is not in the sandbox); a sink
     that succeeds or fails per string, and `write!` resetting the flags for its arguments;
   * in C88-C90 `HashMap` and `HashSet` are association lists without repetitions, `Vec::sort` is
     insertion sort, and a branch of `if cfg!(..)` that is not taken is not instantiated (a compiler
     that evaluates constants in dead code would reject more on 32-bit targets);
   * `AtomicUsize`: in C23 operations on the cell take place one at a time; in C24 a load (or failed
     exchange) may return any value written before, which on one cell is weaker than every C++20 memory order (a cell is coherent); in C92 the memory model is a parameter
     that does not look at values;
   * `Clone` of boxed slices, arrays and their owning iterators clones the elements from the front and,
     when one panics, drops the clones made (C94);
   * in C103, C104 and C106, auto traits and variance of references, `Box`, `Option`, `PhantomData`, arrays and the
     iterators of slices, vectors and arrays are those of the documentation;
   * in C98, `Vec::with_capacity`, `vec![0; n]` and `Clone` of a boxed slice make one request, none for
     0 bytes, and panic without one above `isize::MAX` bytes; `push` within the capacity and
     `into_boxed_slice` of a full vector make none;
   * `MaybeUninit`, `ptr::write`, `transmute_copy`, `mem::forget`, `drop_in_place` act on one cell
     per element as in ModelArrayBuilder.v; anything else is `UB`.
5. **Simplifications**, all stated in the files:
   * allocation succeeds (a huge `Vec::with_capacity` or array may abort or be rejected in reality), except in C98;
   * values are immutable data, `&mut` references are slot numbers; the borrow checker is trusted;
   * destructors of keys and values have no effect and do not panic, except in C49 (drops are
     logged), C77, C78, C94, C107-C111 and C113-C119 (they have effects or may panic; in C107-C110 only those
     of values);
   * `Clone`, `Debug` and `Default` of values and the iterators passed to `from_iter`/`collect` are
     pure and terminate, except in C49, C78, C93 (`Debug`) and C94 (`Clone`, `Default`); callbacks (`FnMut`) have state and may panic where
     the property is about them (C36, C41, C47, C49, C77, C115); the destructors of closures and errors do nothing;
   * within one call an `Ordinal` impl is a function, except in C80 and C82 (`from_ordinal` has a
     state) and in C85-C87 (all of user code has one; C85 and C86 state the calls and the absence of
     UB without the simplification, C87 where it makes a difference); in C64 it may change between
     calls;
   * in C95, which steps a function takes is read off its text (ModelCost.v); only calls, accesses to
     slots and words, and advances of slice iterators and ranges count; creating `n` equal slots counts as `n`;
   * in C96, the object left behind by a panic is what the functions of ModelCatch.v have written
     before it; the code a client runs on a reference or an entry is one assignment that does not panic;
   * an implementation does not override the provided method `all_values`, except in C97;
   * 16-bit targets are excluded; overflow checks and debug assertions are independent flags;
   * lints (also deny-by-default ones, except overflowing literals) do not make code fail to compile.

## 5. Not modelled

* Of derived types: where-clauses other than `T: Ordinal` for a parameter `T`, lifetimes, defaults
  of parameters; unions (rejected by the macro). Outside C83 and C84 a model declaration is one
  instance of a generic one, and type expressions are finite.
* Time other than the steps counted in C95, memory use, panic messages, `#[inline]`,
  rustdoc.
* Destructors of keys and values outside the properties named in section 4; except in C82, C94,
  C107-C111 and C113-C119, the abort caused by a second panic while unwinding.
* The exact span and wording of compile errors.

## 6. Reading seeded/LOG.jsonl

Each line is one wrong program: one model definition edited in a scratch copy. The tool
replaces every proof that stops compiling by an admitted one and carries on. That is done
only in the scratch copy.

- `proofs_broken_directly`: the lemmas and theorems whose own script stopped compiling.
- `examples_failed`: concrete `Example`s that stopped compiling. An example closed by
  computation fails only if the computed behaviour changed, so this is the strongest evidence.
- `theorems_failed`: the property theorems that are no longer proved. It includes every
  theorem that depends, through any chain of lemmas, on a proof broken directly.

`theorems_failed` therefore overstates how many statements an edit makes false. A theorem is
listed if it merely shares a lemma with the broken behaviour. A broken script is also not a
refutation: an edit that keeps the behaviour can still break a script. No negation of a
theorem was proved for these edits. `caught` means "the proofs no longer go through", and
should be trusted most where `examples_failed` is not empty.

- `behaviour_differs_on_samples`: the edited function was computed on samples and differed.
- `note`: why an edit that survived is no fault, or what was done about it.

`inconclusive` lines are runs the tool could not finish. They count neither way.
Runs were made against a snapshot older than HEAD, so theorems added later are not listed.
