# DESIGN: a Rocq/Coq model of AldaronLau/fon 0.5.0

## Layout

`rocq/theories`, in build order:

| files | content |
|---|---|
| `Rust.v` | panics as values, fixed-width integers |
| `Float.v` | f32/f64 as Flocq `binary_float` (one NaN, round to nearest even), `min`, `max`, casts |
| `Math.v` | src/math.rs |
| `Chan.v` | src/chan.rs, src/private.rs |
| `Frame.v` | src/frame.rs, src/mono.rs, src/stereo.rs, src/surround.rs |
| `Ops.v` | src/ops.rs |
| `Stream.v` | src/streaming.rs: Stream, take, blend, Resampler, Sink |
| `Unwind.v` | the same, and src/audio.rs extend, with the state left behind by a panic |
| `Generic.v` | `Sink::stream`, `flush` and `extend` over arbitrary implementors of `Sink`, `Stream` and `Frame` |
| `UserPan.v` | `Pan` over a frame type with any `CONFIG` and any number of channels |
| `UserFrame.v` | the provided methods of `Frame` and `Blend` for any frame type; `TakeStream`, `BlendStream`, `Stream::blend` for any streams |
| `Word.v` | `ceil_usize`, `Sink::stream`, `flush`, `Audio::sink`, `extend`, `with_stream` for any pointer width, with and without overflow checks, with the loop counter |
| `Audio.v` | src/audio.rs |
| `Programs.v` | examples/*.rs and the example in src/lib.rs |
| `Heap.v` | ownership of the allocations behind the unsafe code of src/audio.rs |
| `Ring.v` | the same with capacities, ring buffers and whole programs: any calls on any number of buffers |
| `HeapUser.v` | the same for any type implementing `Frame`, given by size, alignment and valid contents |
| `Spec*.v` | the vocabulary of the statements: small definitions independent of the model's helpers |
| `*Proofs.v`, `SinkMore.v`, `SinkTerm.v`, `StreamMore.v` | lemmas |
| `UnitTests.v` | the 129 assertions of the crate's own unit tests (all in src/chan.rs), run in the model as a check of the model |
| `Prop*.v` | the property theorems, each closed by `exact` (or a witness), with `Print Assumptions` and a concrete case beside it |

`PropChan.v` C01-C17, `PropFrame.v` C18-C27, `PropStream.v` C28-C31, `PropSink.v`
C32-C42, C54, C55, `PropAudio.v` C43-C53, `PropMore.v` C56-C64 (and additions to C10, C11), `PropLaw.v` C65-C69, `PropUnwind.v` C70, `PropEmpty.v` C71 (and
additions to C36, C49), `PropGeneric.v` C72, `PropRel.v`
C73-C75, `PropTrip.v` C76, `PropMany.v` C77 and C78, `PropPan.v` C79, `PropMix.v` C80 and C81, `PropFade.v` C82, `PropSuper.v` C83, `PropHeapUser.v` C84, `PropRaise.v` C85, `PropUserFrame.v` C86, `PropWord.v` C87, `PropArith.v` C88, `PropLower.v` C89, `PropRing.v` C90, `PropMinChoice.v` C91, `PropDelay.v` C92, `PropUsage.v` C93, `PropCarry.v` C94, `PropOrder.v` C95, `PropSum.v` C96, `PropNearby.v` C97, `PropSpread.v` C98, `PropSmooth.v` C99, `PropPitch.v` C100, `PropLerp.v` C101, `PropPause.v` C102.
Theorem names start
with the id of their property.  A theorem named `..._refuted` shows by a witness that
something users may expect is false; the exact behaviour is then proved beside it.

## Trusted base

* Coq 8.16.1's kernel (including `vm_compute`, which some concrete cases and finite
  sweeps use; no `native_compute`).
* Flocq 4.1.0 as a library of definitions and lemmas: the meaning of "f64 addition" is
  its `Bplus mode_NE` and so on. It adds no axioms.
* The axioms of Coq's standard library for real numbers and classical logic, as listed
  by `Print Assumptions` (table below): `ClassicalDedekindReals.sig_forall_dec`,
  `ClassicalDedekindReals.sig_not_dec`, `FunctionalExtensionality.functional_extensionality_dep`,
  `Classical_Prop.classic`. No others, and none of our own.
* The reading of /repo: that the definitions of the model say what the Rust code says.
  Every definition cites file and lines.
* Rust's semantics as far as used: overflow checks panic (debug build; the theorems show
  where no check can fire, so that release builds agree), `as` casts of floats saturate and send
  NaN to 0, slice indexing is checked, `f32::min/max` ignore a NaN operand, float
  arithmetic is IEEE 754 in the declared precision (no x87 excess precision).

### Assumptions per theorem


Closed under the global context (no axioms): `C43_with_frame`, `C43_with_frames`, `C43_get`, `C43_get_mut`, `C43_iter_mut`, `C43_is_empty`, `C47_unused`, `C48_with_buffer`, `C48_raw_slice`, `C48_write`, `C49_with_buffer`, `C49_drop`, `C49_read`, `C49_into_raw`, `C49_into_raw_ownership_refuted`, `C71_adapters`, `C36_saved`, `C49_into_frames`, `C22_from_channels`, `C26_one_channel_panics`, `C84_arrays`, `C84_own`, `C84_zero_size`, `C84_alignment`, `C84_values`, `C84_write`, `C78_waves`, `C80_no_speakers`, `C28_take_length`, `C29_blend_length`, `C30_blend_rates`, `C30_nan_rejected`, `C30_told`, `C86_mix_frames`, `C86_take`, `C86_blend`, `C86_lengths`, `C86_blend_rates`.

Only `ClassicalDedekindReals.sig_forall_dec`, `FunctionalExtensionality.functional_extensionality_dep`: `C88_neg`, `C05_neg_float`, `C89_shares`, `C99_neg`, `C98_spread`, `C96_counted`.

Only `ClassicalDedekindReals.sig_forall_dec`, `ClassicalDedekindReals.sig_not_dec`, `FunctionalExtensionality.functional_extensionality_dep`: `C79_law_total`.

All others (382 theorems) list exactly these four: `ClassicalDedekindReals.sig_forall_dec`, `ClassicalDedekindReals.sig_not_dec`, `Classical_Prop.classic`, `FunctionalExtensionality.functional_extensionality_dep`.


## What is modelled

| source | modelled |
|---|---|
| src/math.rs | all: `ceil`, `ceilh`, `floor_*`, `ceil_usize` |
| src/chan.rs | all of the library code: constructors, constants, all operators (same type, other channel types, raw values), `lerp`, all `From`/`Into`, `to_f64`, `from_f64`, comparison |
| src/frame.rs | all provided methods of `Frame`, the blanket `Stream` impl |
| src/mono.rs, stereo.rs, surround.rs | `new`, `channels`, `from_channels`, `CONFIG`, operators, `Default`, `Iterator` |
| src/ops.rs | all operators; `sin`/`cos` are data |
| src/streaming.rs | `Resampler`, `Sink::stream`, `Sink::flush`, `Stream`, `TakeStream`, `BlendStream` and their iterators |
| src/audio.rs | all public functions, `AudioSink`, `AudioDrain` with `Drop`, conversions to `Vec`/`Box` |
| examples/*.rs, example in src/lib.rs | the programs between reading the input file and writing the output (`Programs.v`) |

Not modelled, because there is nothing to run: src/resampler.rs and coefficients.txt
(`mod resampler` is commented out in lib.rs), `AudioStream` in src/audio.rs (never
constructed), `Debug`, documentation attributes.

Not modelled although it exists:

* user-defined `Frame` types, `Stream` and `Sink` implementations outside of `Sink::stream`, `flush` and
  `extend` (there they are in `Generic.v`), of the provided `Frame` and `Blend` methods, `take` and `blend` (`UserFrame.v`), of `Pan`
  (`UserPan.v`) and of the raw-buffer functions (`HeapUser.v`). There are no user-defined
  `Channel` types: the trait is sealed (src/private.rs);
* allocation failure (`handle_alloc_error`), time and memory use.

## Simplifications

* `usize` has 64 bits and builds have overflow checks, except in `Word.v`, where theorems (C87) say when other targets and builds
  do the same.
* All NaNs are one value; NaN payload and sign are not observable in the model.
* `min`/`max` of +0 and -0 return one fixed operand; Rust leaves the choice open. C91 shows that no choice changes any
  result (for user-defined frames this is not shown).
* Slices, `Vec`, `VecDeque` are lists. In `Heap.v` the capacity of a vector is its length; in `Ring.v` capacities, heads and moves are arguments chosen freely. `Ring.v` has samples of one channel type per program, frames of the crate's three layouts, and the samples an `extend` adds as an argument (which ones they are is the subject of C44-C57, C81 and C89). In `Ring.v` a panicking `extend` frees the buffer at the panic, wherever it had been moved to by then.
* Frames are vectors of 1, 2 or 6 channels; a frame type is a pair (layout, channel type).
* A stream is an expression over frames, buffers, drains, take, blend and user streams; a
  user stream is any sequence of frames, panics and calls that never return, with any reported rate and length. Mutable borrows are
  values passed along: `sink_stream` returns the sink and the rest of the stream,
  dropping a stream returns the buffers it had borrowed (`drop_stream`).
* Loops over streams take fuel. Running out is a third outcome, never a value. Theorems say
  how much fuel suffices, or (C55) that none does, which is what "does not return" means. Overflow of
  the loop's `usize` counter (after 2^64 iterations) is modelled in `Word.v` only.
* Trigonometry is an oracle: `Pan_ t` carries the functions `sin` and `cos` as data, and theorems hold for all of them.

## Properties

| id | property | how proved |
|---|---|---|
| C01 | Integer channel addition and subtraction saturate | integer model, saturating ops against `clampZ`; lia |
| C02 | Integer channel multiplication is full-scale normalised and total | checked i16/i32 product in the panic monad; nia |
| C03 | Integer channel division: result and exact panic set | checked i32 division; exact panic set as an iff |
| C04 | Dividing an integer channel by full scale | corollary of C03; naive law refuted |
| C05 | Negation is the exact waveform mirror | u8/u16 complement; lia. Floats: sign flip |
| C06 | Widening 8->16 bit is lossless and full range | wrapping arithmetic; lia |
| C07 | Integer samples survive a round trip through f64 | Flocq error analysis of `to_f64` and of the epsilon floor, for both widths |
| C08 | Integer samples survive a round trip through 32-bit float | the same in binary32 |
| C09 | Integer to float conversion is accurate, in range and strictly increasing | error bound by Flocq, monotone rounding |
| C10 | Float to integer conversion is total, saturating and monotone | monotonicity of rounding and of the epsilon floor; NaN and infinities by cases |
| C11 | Quantisation error bound | real error bound from the floor lemma |
| C12 | Float channel +, -, / and constructors never leave [-1, 1] | case analysis of min/max with NaN; correctly rounded sum |
| C13 | Float channel multiplication | `Bmult_correct`, monotone rounding |
| C14 | from_f64 on float channels does not clamp (range invariant is escapable) | direct, with witnesses |
| C15 | Float width conversions | inclusion of the formats, monotone rounding |
| C16 | Linear interpolation end points | algebra on C01/C02; float error bound; witness |
| C17 | Direct and Frame::convert conversions agree or differ by one code | C07 and computation over the 65,536 codes by arithmetic |
| C18 | Frame arithmetic is channel-wise | vectors of channels, map lemmas |
| C19 | Frame conversion is total and follows the documented channel map | case analysis on the layout pair against a channel map |
| C20 | Layout round trips lose nothing | C07/C15 lifted to frames; averages of equal samples are exact |
| C21 | Conversion of silence | computation; witnesses |
| C22 | Frame constructors | vectors |
| C23 | Blend operators Src, Dest, Clear | ops model |
| C24 | Blend operators Plus and Amplify | lift of C01/C02/C12/C13 |
| C25 | Compress is unimplemented | panic value |
| C26 | Pan routing | routing search; sin/cos are data carried by the operator (`Pan_ t`), so the theorem holds for any libm |
| C27 | Pan on mono frames | as C26, with the hypothesis that sin/cos of a non-finite angle is NaN |
| C28 | take yields exactly the first n frames | iterator state machine |
| C29 | blend is the frame-wise mix of the common prefix | iterator state machine, both ends |
| C30 | blend rejects exactly the incompatible sample rates | decision table |
| C31 | Rate negotiation of constant.blend(audio) is broken | symbolic execution |
| C32 | A frame used as a stream fills the sink | loop induction |
| C33 | Sinking a finite stream terminates, stays in bounds and is local | loop induction with an abstract float bound |
| C34 | Equal-rate streaming is an exact copy | loop induction, exact integers below 2^53 |
| C35 | Functional specification of the resampler | refinement of the loop to a weighted-sum specification, both directions |
| C36 | Resampler bookkeeping | loop induction |
| C37 | Resampled float output stays in range | invariant: every write is a clamped sum |
| C38 | Resampling weights are a non-negative partition of the ratio | Flocq rounding facts (Sterbenz-like) |
| C39 | Silence resamples to silence | loop invariant |
| C40 | Chunked streaming is not concatenation | two runs composed |
| C41 | Carried-over partial frame is lost | two runs composed |
| C42 | flush | symbolic |
| C43 | Audio construction and access | lists |
| C44 | extend appends without touching existing audio | structure of extend |
| C45 | with_stream / extend panic exactly when the final index overruns | iff on the final index; computed witnesses |
| C46 | Audio::sink is confined to its region | structure of sink |
| C47 | drain removes exactly what was consumed | iterator state machine and drop |
| C48 | Raw sample buffers round trip | chunking lemmas |
| C49 | Ownership of the raw sample buffer | heap of live/freed blocks |
| C50 | Integer-factor upsampling | loop induction with exact products |
| C51 | Halving the sample rate | loop induction with exact halves |
| C52 | Format conversion at equal rate is frame-wise convert | C34 through extend |
| C53 | extend is not panic safe | two-component result of extend |
| C54 | Index arithmetic helpers | Flocq |
| C55 | Sinking an endless stream | measure on positions; divergence by fuel for every fuel |
| C56 | Resampling between whole-number rates: length and exact panic condition | relative error of ratio and product against R*i/S; monotone positions |
| C57 | Value and locality of resampled frames | C35 through extend; |position - R*i/S| < 1/S |
| C58 | Streams with the same frames are interchangeable | the run is a function of rate, length and converted frames |
| C59 | What a drain used with extend leaves behind | C47 and C57 |
| C60 | Buffers survive a trip through a wider format | C52 twice; error-bound proof that every sample type survives |
| C61 | Operators with operands of other types | operand conversion composed with C01-C03, C09, C12 |
| C62 | Interpolation is monotone and stays between its end points | monotone rounding; truncated quotient |
| C63 | The resampler does not drift | relative error bounds |
| C64 | Lowering the sample rate keeps the level | the weights of a frame are differences of two ramps, whose sum telescopes; error bound per addition, induction over the additions |
| C65 | Extending in pieces equals extending with the whole, at equal rates | C36 iterated; witness |
| C66 | Only the ratio of the sample rates matters | equal real quotients round to the same f64; the run is a function of the ratio (C58) |
| C67 | Resampling is causal | each frame is a weighted sum over the sources that reach it (C57); monotone positions |
| C68 | Sinks over separate ranges commute | the buffer as three segments per sink |
| C69 | Laws of stream combinators | iterator state machines: the runs of the two streams are matched step by step |
| C70 | Panics while streaming: their causes and what they leave behind | the same functions with the state at a panic; induction over the loop; agreement with the functions without state |
| C71 | Empty streams | the loop stops at position 0; f64 case analysis for the rates |
| C72 | Other implementors of Sink, Stream and Frame | records of methods; simulation between the generic functions and those of Stream.v/Unwind.v; direct run for custom frames |
| C73 | Channels are processed independently | simulation: a relation on frames kept by default, +, * and convert is kept by next, stream, flush and extend; instance: channel maps |
| C74 | Inverting polarity commutes with resampling into float buffers | the same simulation; rounding to nearest and clamping are odd functions, products with finite weights are finite |
| C75 | Signals within full scale stay within full scale | induction on the stream expression; every write to a buffer is silence or the result of a clamping + |
| C76 | Changing the rate twice | C50 and C51 composed; doubling is exact in binary floating point |
| C77 | Several streams into one sink | induction over the streams from the equal-rate copy at any index (C40) |
| C78 | The example programs | C77 for one-frame streams; C56 for the length, C73 for left = right |
| C79 | Levels of a panned channel | `PiProofs.v` bounds pi/2 by twenty terms of Machin's series in rational arithmetic and shows sin and cos 1-Lipschitz; `PanProofs.v` bounds the computed angle, the quantised gain and the product, and shows that silent channels contribute nothing |
| C80 | Pan on a user's speaker layout | the same search over any sorted list of locations; induction over the channels; the crate's frames are an instance |
| C81 | Mixing several tracks | induction over the tracks with C31's frame-by-frame account of blend; sums in the reals, clamping is 1-Lipschitz |
| C82 | Gain | truncated quotients in Z; monotone rounding; error bounds composed; lifted to streams as in C81 |
| C83 | Resampling is linear | A weighted sum in the channel's arithmetic against the same sum in the reals: each step rounds by `step k`, and the total weight exceeds 1 by too little for the clamp to matter (C64's count and weight totals); the real sums of three sources have the same weights and are linear. C83_mix and C83_fade instantiate it with C81 and C82. |
| C84 | Raw buffers with user-defined frame types | `HeapUser.v` repeats the heap model of C49 for a frame type given by size, alignment and the set of its values; `HeapUserProofs.v` computes each function on an owned buffer, and the equivalence follows from the witnesses for each violated condition |
| C85 | Raising the sample rate | `RaiseProofs.v`: the computed position of a source frame has the exact floor (by the error bound of `WholeProofs.v`, and the tie to even at 2^e(1 - 2^-54) for whole positions); the contributions to a frame are a list of at most three terms, only the last but one of which can saturate; errors as in `LevelProofs.v`, relative to the weight; the last, partial frame from the overhang of the last source frame, kept because the position there is more than 2^-52 from a whole number. The usual rates by computing the criterion for the 120 pairs |
| C86 | User-defined frame types and streams: provided methods and adaptors | `UserFrame.v`: records of the methods a user brings (frames: default, channels, channels_mut; streams: rate, length, set rate, next); inductions over the zipped channel lists and over the calls of next. Where both exist, equality with `Frame.v`, `Ops.v`, `Stream.v` is a theorem |
| C87 | Targets with another pointer width, release builds | `Word.v` repeats the functions with the largest usize and the overflow checks as parameters, and with the loop counter; the loop follows that of `Stream.v` while positions are within the sink (which is not longer than usize::MAX), so only the last iteration can differ. For extend: the ratio is at most the quotient that gives the length, by monotone rounding |
| C88 | Arithmetic and conversion of amplitudes | integers: clamped codes stand for clamped amplitudes, product by a case analysis of signs over Z; floats: C12, C13 and the rounding error; conversions: C06, C09, C11, C15; the two orders by the triangle inequality and 1-Lipschitz clamping, mixes by induction, buffers from C52 and C81 |
| C89 | Lowering the sample rate: what each frame is made of | the computed weights of C56 are compared with the shares one by one (their difference sums to at most (p + 6) 2^-50, telescoping over the at most four source frames at the two edges of the frame and the constant weight between); then the accumulated rounding of C83. The last frame: what hangs over is what the sources before it contribute |
| C90 | Memory over any history of calls | A second memory model (`Ring.v`): allocations with a layout and a live flag, uninitialised cells, and owners with capacity, head and length, so that the VecDeque is a ring. Operations take what the standard library leaves open as arguments (capacity after a move, head after make_contiguous, move or not), normalised so that every argument is legal, and the theorems quantify over them. `SpecRing.v` runs the same program on lists. An invariant (each owner holds its samples, live areas and owners in bijection) is kept by every call; a second one shows that a freed area never becomes live again and that a dangling owner cannot be dropped. |
| C91 | The sign of a zero minimum has no effect | `MinChoice.v` has the loop with the minimum of each iteration as an argument; `SpecMinChoice.v` states what the documentation of `min`/`max` promises. The two can only differ for two zeros; then both weights are zeros, the two cells written are one, and no cell of the range is ever -0 (a sum is -0 only if both operands are), so the products added are absorbed. |
| C92 | A sound heard later is heard the same, later | `DelayProofs.v` shows the shares of C89 and the gains of C85 to be the same `m` source and `q` output frames later, and zero before the delayed sound starts; both outputs are then compared with the same exact value |
| C93 | How much of a stream a sink uses up | the floor of the computed position is that of the exact one, or one less where it is whole (from the error bound of C63); C35 then gives what is pulled; induction over the blocks |
| C94 | A resampler that is handed on plays one block | The position after a call is that of the frame the loop stopped at (commutativity of f64 addition), so it is outside of the covered frames; from there the exact description of a call (C34 ff.) with no frame pulled applies, and adding ratio * 0 moves no position; induction on the blocks. |
| C95 | Converting, mixing and resampling keep the order of samples | The lifting of relations to runs used for C74 (`kept`), applied to the order: monotonicity of saturating sums, of truncated and rounded products with a weight that is not negative, of from_f64 and to_f64 and of averaging; the weights are not negative because the position is not. |
| C96 | Lowering the sample rate: sum and mean of the samples | C89 summed over the destination frames; the order of summation is exchanged and the shares of one source frame telescope (`SumProofs.v`) |
| C97 | Nearby sources give nearby results | C85 and C89 applied to both sources; limiting is 1-Lipschitz, the gains of a frame total at most `applied k (R/S)` and the shares at most 1 (`NearbyProofs.v`) |
| C98 | Raising the sample rate: sum and mean of the samples | the gains of C85 rewritten per source frame, the two sums exchanged; the error of C85 once per frame (`SpreadProofs.v`) |
| C99 | Nearby samples stay nearby through arithmetic, conversion and mixing | C88 on both sides and the 1-Lipschitz clamp; for integers the codes directly; frames and tracks by induction, the latter through C81 (`SmoothProofs.v`) |
| C100 | A sound that repeats keeps repeating: pitch is kept | the share of C89 and the gains of C85 do not change when source and destination are moved by m and q frames; shares before the first and after the last source frame vanish; then C97's weighing |
| C101 | Interpolation reaches the point on the way, between samples up to half the range apart | the error bounds of C88 for -, * and + composed; clamping is the identity or saturates by cases |
| C102 | A pause in the source is a pause in the result, to the last bit | C57's account of every added frame; only source frames at most one destination frame away contribute, weights are finite, and silence times a finite weight is silence |

All are proved; MANIFEST.json names the theorems of each. No theorem is partial.

## Tests against wrong programs

`seeded/LOG.jsonl` records the edits of the model that imitate realistic bugs, which theorems
then failed to build, and which theorems were tightened as a result. Each edit was made in a scratch
copy and the whole development rebuilt: lemmas whose proof script no longer goes through (`broken_lemmas`) are
admitted there, one after the other, so that everything is reached. `failed` lists the property theorems that
are broken themselves or rest on a broken lemma, so it may be more than those that became false; `false_by_reading` names
the theorems whose statement is false of the wrong program, judged by reading it, all of which are among the failed (or among the
tightened).
