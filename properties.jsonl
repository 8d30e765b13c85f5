{"id": "C01", "title": "Integer channel addition and subtraction saturate", "statement": "For Ch8 and Ch16, a + b and a - b return exactly the mathematical sum / difference clamped to [MIN, MAX]; they never wrap or panic. Consequently + is commutative, MID is neutral, and both are monotone in the left operand.", "quantifier": "every pair of Ch8 values and every pair of Ch16 values", "why_tests_cant": "2^32 Ch16 operand pairs per operator; the shipped tests try about six", "anchors": ["src/chan.rs: impl Add/Sub for Ch8, Ch16"]}
{"id": "C02", "title": "Integer channel multiplication is full-scale normalised and total", "statement": "For Ch8 and Ch16, a * b never panics or wraps (in debug or release builds) and equals a*b/MAX truncated toward zero and clamped to [MIN, MAX]. It is commutative, MAX is neutral, MID absorbs.", "quantifier": "every pair of Ch8 values and every pair of Ch16 values", "why_tests_cant": "intermediate overflow shows only at extreme pairs; 2^32 pairs", "anchors": ["src/chan.rs: impl Mul for Ch8, Ch16"]}
{"id": "C03", "title": "Integer channel division: result and exact panic set", "statement": "a / b for Ch8 never panics. a / b for Ch16 panics for exactly one operand pair, MIN / -1 (i32::MIN / -1 in the implementation), and never otherwise. Division by MID (zero) returns MAX. In all remaining cases the result is trunc(2^w * a / b) clamped to [MIN, MAX] where w is the bit width.", "quantifier": "every pair of Ch8 values and every pair of Ch16 values", "why_tests_cant": "a single bad pair among 2^32; the shipped tests miss it", "anchors": ["src/chan.rs: impl Div for Ch8, Ch16"]}
{"id": "C04", "title": "Dividing an integer channel by full scale", "statement": "Users expect a / MAX == a as for the float channels. The code returns a only when a is MID, MIN or MAX; for every other value the result is trunc(2^w*a/MAX) clamped, i.e. roughly doubled. (The naive law is refuted, the exact law is proved.)", "quantifier": "every Ch8 and every Ch16 value", "why_tests_cant": "the shipped tests only divide values whose quotient saturates, which hides the factor of two", "anchors": ["src/chan.rs: impl Div for Ch8, Ch16"]}
{"id": "C05", "title": "Negation is the exact waveform mirror", "statement": "For Ch8/Ch16, -x never panics or overflows, is its own inverse, reverses order, swaps MIN and MAX, and x + (-x) == -1 (one LSB) for every x. For Ch32/Ch64, -(-x) == x bit for bit (NaN aside) and the value is exactly negated.", "quantifier": "every value of each of the four channel types", "why_tests_cant": "tests sample five values per type; two's-complement asymmetry bugs show up only at some values", "anchors": ["src/chan.rs: impl Neg for Ch8, Ch16, Ch32, Ch64"]}
{"id": "C06", "title": "Widening 8->16 bit is lossless and full range", "statement": "Ch16::from(Ch8) maps c to 257*c+128, is strictly increasing, maps MIN/MAX to MIN/MAX, and Ch8::from(Ch16::from(c)) == c. Ch8::from(Ch16) is floor(c/256), total and monotone.", "quantifier": "every Ch8 value and every Ch16 value", "why_tests_cant": "bit-replication and sign-offset tricks fail on individual codes", "anchors": ["src/chan.rs: impl From<Ch8> for Ch16, impl From<Ch16> for Ch8"]}
{"id": "C07", "title": "Integer samples survive a round trip through f64", "statement": "For every Ch8 and Ch16 value c, from_f64(c.to_f64()) == c; likewise through From<Ch64>.", "quantifier": "every Ch8 and Ch16 value", "why_tests_cant": "depends on float rounding and on an epsilon-based ceil at each of the 65,536 codes; tests try three", "anchors": ["src/chan.rs: Channel::to_f64, Channel::from_f64, From<Ch64> for Ch8/Ch16, From<Ch8/Ch16> for Ch64", "src/math.rs: floor_i8, floor_i16, ceil"]}
{"id": "C08", "title": "Integer samples survive a round trip through 32-bit float", "statement": "For every Ch8 and Ch16 value c, converting to Ch32 and back with From returns c.", "quantifier": "every Ch8 and Ch16 value", "why_tests_cant": "single-precision rounding at each code; never tested upstream", "anchors": ["src/chan.rs: From<Ch8/Ch16> for Ch32, From<Ch32> for Ch8/Ch16", "src/math.rs: floorh_i8, floorh_i16, ceilh"]}
{"id": "C09", "title": "Integer to float conversion is accurate, in range and strictly increasing", "statement": "to_f64 / Ch32::from of an integer channel is finite, lies in [-1.0, 1.0], maps MIN to -1.0 and MAX to 1.0 exactly, is strictly increasing, and is within a stated bound of the exact value (2c+1)/(2^w-1).", "quantifier": "every Ch8 and Ch16 value, both float widths", "why_tests_cant": "needs an error bound at every code", "anchors": ["src/chan.rs: From<Ch8/Ch16> for Ch32/Ch64"]}
{"id": "C10", "title": "Float to integer conversion is total, saturating and monotone", "statement": "Ch8::from_f64 / Ch16::from_f64 never panic; x >= 1 (and +inf, and NaN) gives MAX, x <= -1 (and -inf) gives MIN, 0.0 gives MID, and x <= y implies from_f64(x) <= from_f64(y). The direct conversions Ch8/Ch16::from(Ch32/Ch64) take MAX to MAX, MIN to MIN, MID to MID and are monotone on all channel values.", "quantifier": "every f64 bit pattern, every ordered pair of non-NaN f64 values", "why_tests_cant": "2^64 inputs, 2^128 pairs; the epsilon in ceil could break monotonicity near integers", "anchors": ["src/chan.rs: Channel::from_f64 for Ch8, Ch16", "src/math.rs: floor_i8, floor_i16, ceil"]}
{"id": "C11", "title": "Quantisation error bound", "statement": "For every f64 x in [-1, 1], the real value (2c+1)/(2^w-1) of c = from_f64(x) differs from x by at most 1/(2^w-1) plus a negligible rounding term that is stated explicitly. Same bound for the direct conversions from Ch64, and with 2^-8 of a code step as the rounding term for those from Ch32.", "quantifier": "every f64 in [-1,1], Ch8 and Ch16", "why_tests_cant": "uncountably rounded inputs; worst case sits next to code boundaries", "anchors": ["src/chan.rs: Channel::from_f64 for Ch8, Ch16"]}
{"id": "C12", "title": "Float channel +, -, / and constructors never leave [-1, 1]", "statement": "For Ch32/Ch64 the results of new, From<f32>, +, - and / are never NaN and always lie in [-1.0, 1.0], for every operand including NaN, infinities and out-of-range values. For finite operands the result of + and - is the correctly rounded sum clamped to [-1,1]; if the operation yields NaN the result is 1.0; an infinite operand saturates to the end its sign points to (1.0 where the operation is undefined).", "quantifier": "every pair of float channel values of either width, including specials", "why_tests_cant": "2^128 operand pairs including NaN/inf combinations", "anchors": ["src/chan.rs: Ch32::new, Ch64::new, impl Add/Sub/Div for Ch32/Ch64"]}
{"id": "C13", "title": "Float channel multiplication", "statement": "For Ch32/Ch64 the product of two in-range values is in range and not NaN; multiplying by MAX returns the operand unchanged; multiplying an in-range value by MID gives zero; * is commutative.", "quantifier": "every pair of in-range float channel values", "why_tests_cant": "not clamped in the code, so range safety depends on rounding never exceeding 1", "anchors": ["src/chan.rs: impl Mul for Ch32, Ch64"]}
{"id": "C14", "title": "from_f64 on float channels does not clamp (range invariant is escapable)", "statement": "Ch64::from_f64(x) holds exactly x and Ch32::from_f64(x) holds x rounded to f32, for every x, including NaN and |x|>1 (a finite x too large for f32 becomes the infinity of its sign). Hence the documented [-1,1] range and the Eq contract (x == x) are not invariants of the float channel types: both are refuted with witnesses; Eq fails exactly for NaN.", "quantifier": "every f64", "why_tests_cant": "no test covers out-of-range or NaN input", "anchors": ["src/chan.rs: Channel::from_f64 for Ch32, Ch64; impl Eq for Ch32, Ch64"]}
{"id": "C15", "title": "Float width conversions", "statement": "Ch32 -> Ch64 -> Ch32 returns every in-range value unchanged; Ch32 -> Ch64 is exact; Ch64 -> Ch32 stays in [-1,1], never NaN, is monotone and is the correctly rounded clamped value.", "quantifier": "every f32 / f64", "why_tests_cant": "2^32 / 2^64 values, subnormals included", "anchors": ["src/chan.rs: From<Ch32> for Ch64, From<Ch64> for Ch32"]}
{"id": "C16", "title": "Linear interpolation end points", "statement": "lerp never panics. a.lerp(b, MID) is a (integers exactly; in-range floats up to the sign of zero). a.lerp(b, MAX) is b for integer channels exactly when b - a does not saturate; for in-range float channels with |b - a| <= 1 it is within 2^(1-precision) of b, and exact equality is refuted even then (1.0 to 2^-60 ends at 0.0).", "quantifier": "every pair of channel values of each type", "why_tests_cant": "saturation of the inner difference is reached only by distant pairs", "anchors": ["src/chan.rs: Channel::lerp"]}
{"id": "C17", "title": "Direct and Frame::convert conversions agree or differ by one code", "statement": "Converting Ch8 to Ch16 through to_f64/from_f64 (the path Frame::convert takes) equals the direct From conversion for every value. For Ch16 to Ch8 the two paths differ by at most one code, and they do differ (refuted equality).", "quantifier": "every Ch8 and Ch16 value", "why_tests_cant": "two independent implementations of the same conversion; only exhaustive comparison settles it", "anchors": ["src/chan.rs: From<Ch8> for Ch16, From<Ch16> for Ch8", "src/frame.rs: Frame::convert"]}
{"id": "C18", "title": "Frame arithmetic is channel-wise", "statement": "For mono, stereo and 5.1 frames of every channel type, channel i of x op y is (channel i of x) op (channel i of y) for +, -, *, / and their assigning forms, and unary negation negates each channel; nothing else changes, and the frame operation panics exactly when some channel operation panics.", "quantifier": "every pair of frames of each of the 12 formats", "why_tests_cant": "product of all channel values", "anchors": ["src/mono.rs", "src/stereo.rs", "src/surround.rs: operator impls"]}
{"id": "C19", "title": "Frame conversion is total and follows the documented channel map", "statement": "Frame::convert between any two of the 12 built-in formats never panics; mono is duplicated to both stereo channels, stereo left/right map to surround channels 1 and 3 with all other channels silent, surround to stereo picks channels 1 and 3, and down-mix to mono is the average of left and right.", "quantifier": "every frame of every built-in source format, every built-in target format", "why_tests_cant": "144 format pairs times every sample value, dispatched on run-time type ids", "anchors": ["src/frame.rs: Frame::convert"]}
{"id": "C20", "title": "Layout round trips lose nothing", "statement": "convert to the same layout and channel type is the identity; mono -> stereo -> mono and stereo -> surround -> stereo and mono -> surround -> mono return the original frame, for every channel type (integer channels exactly; float channels for every in-range value).", "quantifier": "every frame of the source format", "why_tests_cant": "depends on averaging and float round trips at every sample", "anchors": ["src/frame.rs: Frame::convert"]}
{"id": "C21", "title": "Conversion of silence", "statement": "from_f64(0.0) is silence in every format and converting a silent float frame to any format yields silence, as does converting to the same channel type. Of the conversions between different integer or integer to float types only Ch16 to Ch8 keeps silence, for every pair of layouts; in particular Ch8 MID becomes Ch16 128 and Ch64 1/255, so that silence always stays silence is refuted.", "quantifier": "all 144 format pairs", "why_tests_cant": "users rely on silence staying silent; the DC offset is invisible to end-point tests", "anchors": ["src/frame.rs: Frame::convert, Frame::from_f64", "src/chan.rs"]}
{"id": "C22", "title": "Frame constructors", "statement": "from_f64, from_channel and from_mono set every channel to the given value; from_channels copies the first N channels in order and panics exactly when given fewer than N.", "quantifier": "every value, every slice", "why_tests_cant": "lengths and values unbounded", "anchors": ["src/frame.rs: Frame::from_f64, from_channel, from_mono", "src/{mono,stereo,surround}.rs: from_channels"]}
{"id": "C23", "title": "Blend operators Src, Dest, Clear", "statement": "Mixing with Src returns the source frame, with Dest the destination frame, with Clear silence, for every pair of frames of every format, never panicking; the same on single channels.", "quantifier": "every pair of frames of each format", "why_tests_cant": "all frames", "anchors": ["src/ops.rs: Src, Dest, Clear, Blend::mix_frames"]}
{"id": "C24", "title": "Blend operators Plus and Amplify", "statement": "Plus is the channel-wise saturating sum: commutative, with silence neutral (integer formats exactly). Amplify is the channel-wise product: commutative, with full scale neutral and silence absorbing. Neither ever panics. Plus is not associative (refuted with witness), so mixing order matters.", "quantifier": "every pair (triple) of frames of each format", "why_tests_cant": "saturation makes algebraic laws value dependent", "anchors": ["src/ops.rs: Plus, Amplify"]}
{"id": "C25", "title": "Compress is unimplemented", "statement": "Mixing any frame pair of any built-in format with Compress panics; a stream blended with Compress panics as soon as one frame is pulled.", "quantifier": "every frame pair", "why_tests_cant": "absence of any non-panicking input", "anchors": ["src/ops.rs: Compress"]}
{"id": "C26", "title": "Pan routing", "statement": "Mixing frames with Pan never panics on a built-in format (mixing single channels with it always does). Each destination channel is routed to exactly two speakers, with gains cos and sin of the panning angle: for a position at or right of the first speaker location always to speakers 0 and 1, otherwise to the last location's and speaker 0. Hence for 5.1 channels 2, 3 and 5 are silent whatever the position, and channel 4 is silent for positions >= -2/3: hard right never reaches the right speakers (the documented behaviour is refuted).", "quantifier": "every pan position, every frame, every sin/cos implementation", "why_tests_cant": "real-valued position, every speaker layout", "anchors": ["src/ops.rs: Pan"]}
{"id": "C27", "title": "Pan on mono frames", "statement": "Panning a mono frame ignores the pan position: float formats always yield full scale 1.0 whatever the input; integer formats yield the doubled saturated input (given that sin/cos of a non-finite angle is NaN, as IEEE libm specifies).", "quantifier": "every mono frame and position", "why_tests_cant": "division by a zero speaker distance on every input", "anchors": ["src/ops.rs: Pan", "src/mono.rs: CONFIG"]}
{"id": "C28", "title": "take yields exactly the first n frames", "statement": "s.take(n) reports length min(n, len(s)) (n for an infinite stream), yields exactly the first min(n, len) frames of s in order, then ends, and pulls at most n frames from s.", "quantifier": "every stream expression, every n", "why_tests_cant": "nested adapters and infinite streams", "anchors": ["src/streaming.rs: TakeStream"]}
{"id": "C29", "title": "blend is the frame-wise mix of the common prefix", "statement": "a.blend(b, op) yields for each index i the mix of frame i of a with converted frame i of b, stops at the shorter stream, and reports exactly that length (None only if both are infinite).", "quantifier": "every pair of stream expressions, every op (including user-defined)", "why_tests_cant": "streams of unbounded length, nested", "anchors": ["src/streaming.rs: BlendStream, Stream::blend", "src/ops.rs: Blend::mix_frames"]}
{"id": "C30", "title": "blend rejects exactly the incompatible sample rates", "statement": "a.blend(b, op) panics if both rates are fixed and differ as f64 (NaN differs from itself); otherwise it succeeds whenever the unset side is configurable or a frame.", "quantifier": "every pair of stream expressions", "why_tests_cant": "all rate combinations including NaN", "anchors": ["src/streaming.rs: Stream::blend"]}
{"id": "C31", "title": "Rate negotiation of constant.blend(audio) is broken", "statement": "For every frame f and audio buffer a, sinking f.blend(&a, op) panics in set_sample_rate although blend itself accepted the combination, for every sink and op; (&a).blend(f, op) does not panic there.", "quantifier": "every frame, audio, op, sink", "why_tests_cant": "all sinks and audio contents", "anchors": ["src/streaming.rs: Stream::blend, BlendStream::sample_rate, BlendStream::set_sample_rate", "src/frame.rs: impl Stream for T"]}
{"id": "C32", "title": "A frame used as a stream fills the sink", "statement": "Streaming a constant frame (infinite stream) into a fresh sink terminates and sets every frame of the sink's buffer to the converted frame.", "quantifier": "every frame, every buffer length up to 2^53", "why_tests_cant": "infinite source; termination", "anchors": ["src/frame.rs: impl Stream for T", "src/streaming.rs: Sink::stream"]}
{"id": "C33", "title": "Sinking a finite stream terminates, stays in bounds and is local", "statement": "For every stream whose reported length is finite and whose items and rate negotiation do not panic, Sink::stream terminates without panicking, leaves the buffer length unchanged, and leaves every frame at or beyond max(1, floor(ratio*len)) untouched. It pulls at most len+1 times.", "quantifier": "every stream, every sample-rate pair (any f64 including NaN, 0, inf, negative), every resampler state, every buffer", "why_tests_cant": "all float ratios and states", "anchors": ["src/streaming.rs: Sink::stream"]}
{"id": "C34", "title": "Equal-rate streaming is an exact copy", "statement": "When sink and stream have the same finite non-zero rate (or the stream has none), streaming n frames into a fresh sink with at least n slots stores exactly the n converted frames in order (integer formats bit-exact, float formats equal for in-range samples), consumes exactly n, and leaves the rest unchanged.", "quantifier": "every rate, every stream content, every buffer with length below 2^53", "why_tests_cant": "induction over stream length with float index arithmetic", "anchors": ["src/streaming.rs: Sink::stream"]}
{"id": "C35", "title": "Functional specification of the resampler", "statement": "For every ratio and resampler state, each destination frame in range equals the ordered saturating sum, starting from silence, of source_i * w over the source frames whose position j_i = ratio*i + offset has floor or ceil equal to that destination index, with weights ratio - min(frac j_i, ratio) and min(frac j_i, ratio).", "quantifier": "every stream, ratio and state", "why_tests_cant": "arbitrary float ratios, unbounded length", "anchors": ["src/streaming.rs: Sink::stream", "src/math.rs: ceil_usize"]}
{"id": "C36", "title": "Resampler bookkeeping", "statement": "After Sink::stream, Resampler::index() equals the previous index plus ratio * k where k is the number of source frames consumed when the sink filled up, or the reported stream length otherwise; frame() accumulates exactly the overhanging contributions.", "quantifier": "every stream and state", "why_tests_cant": "float state carried across calls", "anchors": ["src/streaming.rs: Sink::stream, Resampler"]}
{"id": "C37", "title": "Resampled float output stays in range", "statement": "After Sink::stream (or with_stream / extend) into a Ch32/Ch64 buffer, every newly written frame is within [-1,1] and not NaN, for any source samples (NaN, infinite, out of range) and any sample rates.", "quantifier": "every source, every rate pair", "why_tests_cant": "NaN and infinity propagation through weights", "anchors": ["src/streaming.rs: Sink::stream", "src/chan.rs: impl Add for Ch32/Ch64"]}
{"id": "C38", "title": "Resampling weights are a non-negative partition of the ratio", "statement": "For every finite positive ratio and finite non-negative index position, both weights used for a source frame are non-negative, neither exceeds the ratio, and their exact sum differs from the ratio by at most half an ulp.", "quantifier": "every ratio and position", "why_tests_cant": "floating-point identity over 2^128 pairs", "anchors": ["src/streaming.rs: Sink::stream lines 107-109"]}
{"id": "C39", "title": "Silence resamples to silence", "statement": "Streaming silent frames of the same channel type (or silent float frames into any type, or silent Ch16 frames into Ch8) into a fresh sink leaves silence in every destination frame in range, for any sample rates with finite weights.", "quantifier": "every rate pair, every length", "why_tests_cant": "every ratio", "anchors": ["src/streaming.rs: Sink::stream"]}
{"id": "C40", "title": "Chunked streaming is not concatenation", "statement": "Streaming a second equal-rate stream of m frames into the same sink after one of n frames clears the first m frames of the buffer; if m <= n it writes nothing and consumes nothing, otherwise it stores only the first m-n frames at positions n..m. Hence streaming in chunks does not in general equal streaming the concatenation (refuted expectation, as used in examples/resampler.rs).", "quantifier": "every pair of streams and buffer", "why_tests_cant": "history-dependent behaviour of offset and range", "anchors": ["src/streaming.rs: Sink::stream", "examples/resampler.rs"]}
{"id": "C41", "title": "Carried-over partial frame is lost", "statement": "If the next stream call covers at least one destination frame, the left-over partial frame held by the resampler does not influence any destination frame except through being still retained in frame(); it is added to buffer[0] and then cleared.", "quantifier": "every sink state and stream", "why_tests_cant": "state history", "anchors": ["src/streaming.rs: Sink::stream lines 80-95"]}
{"id": "C42", "title": "flush", "statement": "flush changes at most the frame at floor(index()), only when index() has a fractional part above epsilon in magnitude, setting it to frame(); it panics exactly when that position is outside the buffer.", "quantifier": "every sink state", "why_tests_cant": "all float states", "anchors": ["src/streaming.rs: Sink::flush"]}
{"id": "C43", "title": "Audio construction and access", "statement": "with_silence(r,n)/with_frame(r,n,f) have length n, rate r and every frame silence/f; with_frames and into Vec/Box return the same frames in order; get(i) is Some exactly for i < len; writing through get_mut/iter_mut changes only the addressed frames.", "quantifier": "every length, index, content", "why_tests_cant": "unbounded lengths", "anchors": ["src/audio.rs: with_silence, with_frame, with_frames, get, get_mut, iter_mut, From<Audio> for Vec/Box"]}
{"id": "C44", "title": "extend appends without touching existing audio", "statement": "If extend returns, all existing frames and the sample rate are unchanged and the length grows by exactly ceil(rate*n/source_rate) as computed in f64 (n when the stream has no rate).", "quantifier": "every audio, every stream, every rate", "why_tests_cant": "all ratios and contents", "anchors": ["src/audio.rs: extend, extend_internal"]}
{"id": "C45", "title": "with_stream / extend panic exactly when the final index overruns", "statement": "extend on an honest finite non-panicking stream panics iff the target length overflows memory or the resampler's final index has a fractional part above epsilon and lies at or past the allocated length. This does happen on ordinary input: converting 147 frames (or any of many multiples, e.g. one second) from 44.1 kHz to 48 kHz panics (the expectation 'finite streams never panic' is refuted).", "quantifier": "every audio, stream and rate pair", "why_tests_cant": "needs the exact float coincidence of two differently rounded lengths", "anchors": ["src/audio.rs: extend_internal", "src/streaming.rs: Sink::flush"]}
{"id": "C46", "title": "Audio::sink is confined to its region", "statement": "sink(range) panics exactly when the range is out of bounds (or inverted); whatever is streamed and flushed through it, frames outside the range keep their values and the buffer keeps its length and rate.", "quantifier": "every audio, every range form, every sequence of stream calls", "why_tests_cant": "all histories", "anchors": ["src/audio.rs: Audio::sink, AudioSink"]}
{"id": "C47", "title": "drain removes exactly what was consumed", "statement": "After streaming drain() (possibly through take/blend) into a sink, the buffer holds exactly the frames not pulled, in order; at equal rates these are exactly the frames not stored; dropping an unused drain removes nothing.", "quantifier": "every audio, adapter nesting, sink", "why_tests_cant": "drop-time state after partial consumption", "anchors": ["src/audio.rs: AudioDrain, Drop for AudioDrain"]}
{"id": "C48", "title": "Raw sample buffers round trip", "statement": "with_i8/i16/f32/f64_buffer panics exactly when the sample count is not a multiple of the channel count; otherwise frame i holds samples i*N..i*N+N, as_*_slice and Into<Box<[_]>> give back exactly the original samples, and writing through as_*_slice is visible in get().", "quantifier": "every buffer, every layout", "why_tests_cant": "unbounded lengths", "anchors": ["src/audio.rs: with_*_buffer, as_*_slice, From<Audio> for Box<[_]>"]}
{"id": "C49", "title": "Ownership of the raw sample buffer", "statement": "Constructing from a raw buffer transfers the allocation without copying, leaking or double-freeing. Converting a non-empty Audio into Box<[i8]>/<[i16]>/<[f32]>/<[f64]> returns a box whose memory has already been freed when the function returns (the documented 'get ownership of the sample data back' is refuted).", "quantifier": "every audio", "why_tests_cant": "undefined behaviour is not observable by an assertion", "anchors": ["src/audio.rs: From<Audio> for Box<[i8]> etc., with_*_buffer"]}
{"id": "C50", "title": "Integer-factor upsampling", "statement": "with_stream at m times the source rate (integer m) returns exactly m*n frames, without panicking: frame m*i holds source frame i weighted by m (clamped), all other frames are silence - i.e. the signal is zero-stuffed, not interpolated.", "quantifier": "every m, n within 2^53, every source", "why_tests_cant": "induction over n with float index arithmetic", "anchors": ["src/audio.rs: with_stream", "src/streaming.rs: Sink::stream"]}
{"id": "C51", "title": "Halving the sample rate", "statement": "with_stream at half the source rate of 2n frames returns n frames without panicking: frame p is the saturating sum of half of source 2p-1 (if any) and half of source 2p; the last source frame is dropped.", "quantifier": "every n, every source", "why_tests_cant": "induction over n", "anchors": ["src/audio.rs: with_stream", "src/streaming.rs: Sink::stream"]}
{"id": "C52", "title": "Format conversion at equal rate is frame-wise convert", "statement": "with_stream(r, &a) for a at rate r equals mapping Frame::convert over the frames: same length, same order, integer targets exact.", "quantifier": "every audio and format pair", "why_tests_cant": "unbounded lengths times all formats", "anchors": ["src/audio.rs: with_stream"]}
{"id": "C53", "title": "extend is not panic safe", "statement": "If extend panics (infinite stream, rate negotiation, index overrun, unimplemented op), the audio buffer is left empty with sample rate 0: all previous audio is lost.", "quantifier": "every audio and panicking stream", "why_tests_cant": "needs the panic path at every point", "anchors": ["src/audio.rs: extend"]}
{"id": "C54", "title": "Index arithmetic helpers", "statement": "The destination index and its ceiling are computed without overflow for every f64: the ceiling equals the floor when the fraction is at most epsilon and floor+1 otherwise, never exceeding usize::MAX.", "quantifier": "every f64", "why_tests_cant": "2^64 inputs", "anchors": ["src/math.rs: ceil_usize, ceil, ceilh"]}
{"id": "C55", "title": "Sinking an endless stream", "statement": "Streaming an endless stream into a sink with a finite ratio and a non-negative index returns after at most the number of source frames that fill the buffer in exact arithmetic (ceil(buffer length / ratio)), having pulled a prefix of them. With a ratio that is zero, negative or NaN, streaming an endless stream into a fresh non-empty sink never returns.", "quantifier": "every endless stream, every rate pair, buffers and counts up to 2^53", "why_tests_cant": "termination over infinite inputs and rounding for every ratio", "anchors": ["src/streaming.rs: Sink::stream"]}
{"id": "C56", "title": "Resampling between whole-number rates: length and exact panic condition", "statement": "For source and buffer rates that are whole numbers of Hz, extend/with_stream of n frames appends exactly ceil(R*n/S) frames (exact integer arithmetic), or panics with an index out of bounds; it panics exactly when R*n is a multiple of S, at least 2*S, and the f64 product of the rounded ratio with n exceeds the exact quotient. So it never panics when the ratio R/S is not rounded up (48 to 44.1 kHz) or when R*n is not a multiple of S.", "quantifier": "every pair of whole rates with S and R*n up to 2^51, every honest finite stream, every format pair", "why_tests_cant": "rounding of the ratio times every possible length; unbounded rates and lengths", "anchors": ["src/audio.rs: extend_internal, with_stream", "src/streaming.rs: Sink::stream, Sink::flush"]}
{"id": "C57", "title": "Value and locality of resampled frames", "statement": "Every frame that extend appends is given by a closed formula: a covered frame is the ordered saturating weighted sum of the source frames whose position floors or ceils to it, a frame behind them is silence or the overhang. At whole rates the appended frame p depends only on source frames i with |R*i - S*p| <= S: changing a sample is never heard more than one output frame away.", "quantifier": "every buffer, stream and rate (formula); every pair of whole rates (locality)", "why_tests_cant": "relational property over two runs with unbounded sources", "anchors": ["src/audio.rs: extend_internal", "src/streaming.rs: Sink::stream, Sink::flush"]}
{"id": "C58", "title": "Streams with the same frames are interchangeable", "statement": "If two streams, of whatever formats and adapters, report the same rate and length and give the same converted frames, then streaming either into the same sink, or extending the same audio with either, gives the same result. In particular a finite stream expression can be replaced by a buffer of its frames.", "quantifier": "every pair of streams, every sink, every buffer", "why_tests_cant": "relational property over all stream expressions", "anchors": ["src/streaming.rs: Sink::stream, Stream", "src/audio.rs: extend"]}
{"id": "C59", "title": "What a drain used with extend leaves behind", "statement": "After a.extend(b.drain()), b holds exactly the frames from the first one whose position lies outside the covered frames; at equal whole rates b is empty; at other rates frames can stay behind although their duration was appended.", "quantifier": "every pair of buffers, every rates", "why_tests_cant": "state after drop for every ratio and length", "anchors": ["src/audio.rs: drain, extend, AudioDrain::drop"]}
{"id": "C60", "title": "Buffers survive a trip through a wider format", "statement": "Converting an in-range buffer at a whole rate with with_stream to a format with at least as many channels and a sample type that can hold its samples (8 to any, 16 to 16/32/64, 32 to 32/64, 64 to 64), and back, returns the original buffer: equal frames, same rate and length (identical for integer samples).", "quantifier": "every buffer, every such pair of the 12 formats", "why_tests_cant": "composition of two resampler runs, all samples, unbounded lengths", "anchors": ["src/audio.rs: with_stream", "src/frame.rs: Frame::convert", "src/chan.rs: to_f64, from_f64"]}
{"id": "C61", "title": "Operators with operands of other types", "statement": "a op b with b of another channel type (R: Into<Self>) is the saturating operation on the converted operand: for Ch16 op Ch8 on 257*b+128, for Ch8 op Ch16 on floor(b/256), for a float with an integer within 2^(2-precision) of the clamped exact sum/difference, for an integer with a float on an integer code within (1 + 2^(16-precision)) / (2^bits - 1) of the operand. Ch8/Ch16 mixed division never panics. Full scale of every type is neutral for *, float silence is neutral for + and -, integer silence is not (refuted: Ch16 + Ch8 silence adds 128). A raw f32 operand is clamped before the operation. A raw i8/i16 operand counts as its number, saturating (the one Ch16 division panic, MIN / -1, excepted).", "quantifier": "every pair of channel types and values", "why_tests_cant": "16 type combinations times all values", "anchors": ["src/chan.rs: impl<R: Into<Self>> Add/Sub/Mul/Div, From<f32> for Ch32"]}
{"id": "C62", "title": "Interpolation is monotone and stays between its end points", "statement": "a.lerp(b, t) rises with t if a <= b and falls if b <= a, for every channel type. For t >= MID integer results lie between a and b; in-range float results lie between a and b up to one rounding, 2^(1-precision), beyond b. Frame::lerp is channel-wise and never panics.", "quantifier": "every in-range a, b, t of each channel type; every frame", "why_tests_cant": "three-operand float arithmetic with clamping", "anchors": ["src/chan.rs: Channel::lerp", "src/frame.rs: Frame::lerp"]}
{"id": "C63", "title": "The resampler does not drift", "statement": "After streaming into a fresh sink at whole-number rates, Resampler::index() is within 3/(4*S) of the exact position R*n/S, however many frames n (R*n up to 2^51) were counted: rounding errors do not accumulate.", "quantifier": "every pair of whole rates, every stream", "why_tests_cant": "needs an error bound valid for all lengths", "anchors": ["src/streaming.rs: Sink::stream, Resampler::index"]}
{"id": "C64", "title": "Lowering the sample rate keeps the level", "statement": "When a buffer is extended with a stream of a higher whole-number rate S than its own rate R, every appended frame except the first and the last lies, channel by channel, between the lowest and the highest level of the source frames at most one destination frame away, up to the rounding of at most S/R + 6 additions (2.5 units each for Ch8 and Ch16, 2^-23 for Ch32, 2^-52 for Ch64, plus (p+6)*2^-49): there is no change of gain and no overshoot. The first appended frame is quieter by the factor R/S (a finding: a constant signal starts with a quieter frame).", "quantifier": "every pair of whole rates R <= S <= 2^50 with R*n <= 2^51, every stream, every layout and channel type, every frame position", "why_tests_cant": "needs the sum of the interpolation weights of every frame, in f64 arithmetic, for every pair of rates and every position", "anchors": ["src/streaming.rs: Sink::stream", "src/audio.rs: Audio::extend", "src/chan.rs"]}
{"id": "C65", "title": "Extending in pieces equals extending with the whole, at equal rates", "statement": "At equal (or taken-over) whole-number sample rates, calling Audio::extend once per piece of a signal leaves the same buffer as one call with the whole signal: for every way of cutting it and every kind of stream the pieces come from, all calls succeed, and every frame is added. A sequence of calls has only one outcome. At differing rates this is false (a finding): two pieces at twice the rate of the buffer leave another buffer than the whole.", "quantifier": "every buffer, every whole rate z with z*n <= 2^53, every list of pieces, every layout and channel type of source and buffer", "why_tests_cant": "there are infinitely many signals and ways to cut them; a test only shows one", "anchors": ["src/audio.rs: Audio::extend", "src/streaming.rs: Sink::stream, Stream::take"]}
{"id": "C66", "title": "Only the ratio of the sample rates matters", "statement": "Two extends whose source and destination rates stand in the same ratio (R1:S1 = R2:S2, whole numbers) and whose streams give the same frames after conversion append exactly the same frames, bit for bit, or both panic with an out-of-bounds index: resampling 32 kHz to 48 kHz is the same as 2 Hz to 3 Hz.", "quantifier": "every two pairs of whole rates in the same ratio up to 2^51 with R*n <= 2^51, every two streams with equal converted frames, every layout and channel type", "why_tests_cant": "needs bitwise equal f64 quotients and products for all rates in the same ratio", "anchors": ["src/audio.rs: Audio::extend", "src/streaming.rs: Sink::stream, Resampler"]}
{"id": "C67", "title": "Resampling is causal", "statement": "If one stream is a prefix of another at the same rate, then the destination frames that end before the prefix ends are the same whether the shorter or the longer stream is used to extend a buffer: later source frames never change earlier output.", "quantifier": "every buffer with a whole rate R, every stream with a whole rate S <= 2^51, every continuation with R*n <= 2^51, every frame position p with (p+1)*S < R*n1", "why_tests_cant": "quantifies over all continuations of a stream, all rates, all positions", "anchors": ["src/streaming.rs: Sink::stream", "src/audio.rs: Audio::extend"]}
{"id": "C68", "title": "Sinks over separate ranges commute", "statement": "Sinks made with Audio::sink over two ranges of a buffer that do not overlap may be used and dropped in either order: each sees the same frames and goes through the same states, and the buffer ends up the same.", "quantifier": "every buffer, every two non-overlapping ranges of any RangeBounds form, every sequence of uses of the sinks", "why_tests_cant": "quantifies over all sequences of uses of the sinks", "anchors": ["src/audio.rs: Audio::sink", "src/streaming.rs: Sink"]}
{"id": "C69", "title": "Laws of stream combinators", "statement": "Streams that report the same rate and length and give the same frames can replace each other in sinks, extend, take and blend. Under that equivalence: take(n) then take(m) is take(min(n,m)); taking at least as many frames as there are is the stream itself; taking n frames of a blend is blending with n frames of either stream; blending with Plus or Amplify is commutative for streams of equal rate, layout and type; blending with Dest is the first stream limited to the length of the second; blending an integer stream with a silent frame by Plus is the stream itself.", "quantifier": "every stream (frames, audio, drains, user-defined, and nested take and blend), every n and m, every operator that does not panic", "why_tests_cant": "equations between programs over all streams, including user-defined ones, and all their continuations", "anchors": ["src/streaming.rs: Stream, Stream::take, Stream::blend", "src/ops.rs"]}
{"id": "C70", "title": "Panics while streaming: their causes and what they leave behind", "statement": "Sink::stream panics exactly if the stream has no sample rate and cannot take one over, or its source panics while its frames are still needed, or a source that claims to be endless ends while its frames are still needed. If the rate could not be negotiated the sink is untouched and nothing was taken from drains. Otherwise the sink's rate, length and index are unchanged, the frames it covered are the weighted sums of the frames that arrived before the panic, frames beyond are unchanged. Buffers behind drains lose frames only at the front however stream or extend end; a blend of two drains whose operator panics has taken the two frames it was mixing. An extend with a drain that panics leaves an empty 0 Hz destination and the drained buffer without the frames read, so it is false (a finding) that the audio survives in one of the two buffers. A caller who catches panics of next and calls it again gets: from take, at most n calls of its source, panicking ones counted; from blend, frames of the left stream mixed with the right one's next frame, which is not called while the left gives none, so that the two are out of step after a panic of the left one (refuted otherwise).", "quantifier": "every sink state, every stream expression including user streams and operators that panic, every layout and channel type", "why_tests_cant": "panics may happen at any frame of any stream for any operator; the state after a caught panic depends on all frames before it", "anchors": ["src/streaming.rs: Sink::stream, Stream::blend", "src/audio.rs: Audio::extend, AudioDrain::drop", "src/ops.rs: Blend"]}
{"id": "C71", "title": "Empty streams", "statement": "For a stream that tells the truth about its length, is_empty() is true exactly if it gives no frame before it ends; an endless stream is never empty. take(n) is empty exactly for n = 0 or an empty stream, blend exactly if one of the two is empty. Streaming an empty stream pulls nothing; the only change to the buffer is that the left-over frame of the resampler is added to the first frame (so 'streaming nothing changes nothing' is false, a finding). Extending an Audio by an empty stream leaves it unchanged for all rates, including 0, infinite and NaN rates.", "quantifier": "every stream expression, every sink state, every rate", "why_tests_cant": "all streams, all sink states and all f64 rates", "anchors": ["src/streaming.rs: Stream::is_empty, Sink::stream", "src/audio.rs: Audio::extend"]}
{"id": "C72", "title": "Other implementors of Sink, Stream and Frame", "statement": "Any Sink whose resampler and buffer read back what was written behaves, with stream and flush, exactly as the crate's own sink over the same values, and anything else it holds is untouched, also when a panic occurs. Any Stream implementor over the crate's frame types behaves as the list of frames it gives after it was told the rate. Frames of a type that is not one of the crate's cannot be streamed with the provided Frame::convert, not even into a sink of the same type: the first frame is taken and lost, the covered part of the buffer is cleared, and the call panics; extend then also loses the buffer. A frame type with its own convert is copied exactly at equal rates if multiplying by from_f64(1.0) keeps a frame and by from_f64(0.0) gives a neutral one.", "quantifier": "every implementor (methods are arbitrary functions on an arbitrary state), every state", "why_tests_cant": "quantifies over all possible implementations of the public traits", "anchors": ["src/streaming.rs: Sink, Stream", "src/frame.rs: Frame::convert", "src/audio.rs: Audio::extend"]}
{"id": "C73", "title": "Channels are processed independently", "statement": "Selecting, duplicating, dropping or reordering channels commutes with streaming, flushing and extending: if every channel i of the second source, buffer and left-over frame is channel p(i) of the first, then the two calls have the same outcome (value or the same panic) and the same relation holds afterwards, for every layout pair and every p. Blends with Src, Dest, Clear, Plus and Amplify keep channels apart too. A mono source streamed into a stereo buffer gives the mono result twice; the front left and right channels of a surround buffer get exactly what a stereo buffer gets, from a source of any layout.", "quantifier": "every channel map, layout, format, source, sink state and rate", "why_tests_cant": "relates pairs of unbounded runs over all channel maps and all sample values", "anchors": ["src/streaming.rs: Sink::stream, Sink::flush", "src/frame.rs: Frame::convert", "src/ops.rs: Blend::mix_frames", "src/audio.rs: Audio::extend"]}
{"id": "C74", "title": "Inverting polarity commutes with resampling into float buffers", "statement": "For Ch32 and Ch64 buffers, if two sources of any format have opposite amplitudes (within full scale) and the two buffers and left-over frames are opposite (finite), streaming, resampling at any ratio of moderate size, flushing and extending have the same outcome and give opposite buffers, bit for bit up to the sign; negating float frames gives such sources, and so do sums of such sources and products with the same gains. In integer buffers this is false (a finding): frames the resampler leaves silent are code 0 in both, and the mirror image of 0 is -1; and the f64 value of a negated integer sample is not always exactly the negative (-126 and 125 in 8 bits).", "quantifier": "every pair of opposite sources, every rate with |ratio| <= 2^100, every sink state", "why_tests_cant": "relates pairs of unbounded runs over all float sample values, including rounding and saturation", "anchors": ["src/streaming.rs: Sink::stream, Sink::flush", "src/chan.rs: Add, Mul, Neg for Ch32/Ch64", "src/frame.rs: Frame::convert"]}
{"id": "C75", "title": "Signals within full scale stay within full scale", "statement": "Frame::convert and every blend operator of the crate (Pan with any cos/sin) turn frames within [-1, 1] into frames within [-1, 1]; so every frame given by a stream built with take and blend from frames, buffers and drains in range is in range. A buffer (and left-over frame) in range stays in range whatever is streamed into it, including NaN and infinities and sources that panic midway, and after flush; a buffer in range stays so under extend.", "quantifier": "every stream expression, operator, sink state, source (also ones not in range), outcome", "why_tests_cant": "an invariant over all reachable states and all float inputs", "anchors": ["src/ops.rs: Blend", "src/frame.rs: Frame::convert", "src/streaming.rs: Sink::stream, Sink::flush", "src/audio.rs: Audio::extend"]}
{"id": "C76", "title": "Changing the rate twice", "statement": "Building a buffer at twice the rate of the source with with_stream and converting it back gives as many frames as the source, but not the signal: integer samples come back about halved (63x/127 and 16383x/32767, truncated), float samples come back cut off at half of full scale (unchanged below it). Halving and doubling leaves every second frame silent. Raising the rate by whole factors in two steps is raising it in one step in the integer formats. That a trip up and back restores the signal is refuted.", "quantifier": "every honest finite source, every pair of formats, whole rates, every sample value within full scale", "why_tests_cant": "composes two resampling runs over unbounded signals and all sample values", "anchors": ["src/audio.rs: with_stream, extend", "src/streaming.rs: Sink::stream, Sink::flush"]}
{"id": "C77", "title": "Several streams into one sink", "statement": "Any number of non-empty streams at the sink's rate (or without a rate), of any formats, sent to the same sink one after the other, always succeed, and the buffer is this: a slot past the end of every stream keeps its value; a slot that exactly one stream reaches holds that stream's frame number p - m, m being the length of the longest stream before it; a slot that two or more streams reach is silent. The index afterwards is the length of the longest stream, limited to the buffer; nothing is carried over.", "quantifier": "every list of finite streams, every mix of formats, every buffer up to 2^53 frames", "why_tests_cant": "unbounded number of calls, each depending on the index left by all earlier ones", "anchors": ["src/streaming.rs: Sink::stream"]}
{"id": "C78", "title": "The example programs", "statement": "Sending the frames of a buffer to a sink one by one as streams of one frame (examples/resampler.rs, which also tells each of them its rate) silences the first frame of the region and changes nothing else, if there are at least two. So the output of examples/resampler.rs is that of with_stream with the first frame silenced, for every input for which with_stream returns. The sawtooth example and the one in the crate documentation return 279 stereo frames with equal left and right samples, for any 256 samples of the wave. That the frame by frame loop reproduces the converted audio is refuted.", "quantifier": "every input file / wave, every format and buffer for the loop", "why_tests_cant": "all inputs of a program with an unbounded loop", "anchors": ["examples/resampler.rs", "examples/sawtooth.rs", "src/lib.rs: crate documentation", "src/streaming.rs: Sink::stream, TakeStream::set_sample_rate"]}
{"id": "C79", "title": "Levels of a panned channel", "statement": "Given sin and cos functions that are within e of the true ones, a stereo or 5.1 frame of any sample format with one sounding channel x, panned to a position s, comes out of two speakers at the levels x*cos(th) and x*sin(th) and of no other, up to an error of about e times full scale plus 3 integer codes or 2^-24 (f32) or 2^-54 (f64). The angle th is given in closed form: (s+1/2)*pi/2 for stereo from s = -1/2 on. So panning keeps the total power, and near the centre both stereo speakers are level. The documented ends are refuted: at any position left of -1/2 a stereo channel is heard in the right speaker at 95% of its level or more, and right of 3/4 the left speaker plays it inverted at 30% or more.", "quantifier": "every frame, every position, every sample format, every accuracy of sin and cos", "why_tests_cant": "real-valued positions and levels; the law involves pi and rounding at five places", "anchors": ["src/ops.rs: Pan", "src/stereo.rs: CONFIG", "src/surround.rs: CONFIG"]}
{"id": "C80", "title": "Pan on a user's speaker layout", "statement": "Frame is a public trait, so a user's frame type brings its own CONFIG (speaker locations from left to right) and its own channels. For every such type: a position at or right of the first location is sent to speakers 0 and 1, one left of it to the last speaker and speaker 0; Pan panics exactly when one of those is not among the frame's channels, and on an empty CONFIG; otherwise it changes no other speaker, so that with four or more speakers the third up to the last but one are never used. That a sound placed exactly at a speaker's location is sent to that speaker is refuted. The crate's own frames are instances.", "quantifier": "every sorted list of finite locations, every number of channels, every sample format, all frames, any sin and cos", "why_tests_cant": "quantifies over user types and over all positions", "anchors": ["src/ops.rs: Pan", "src/frame.rs: Frame::CONFIG"]}
{"id": "C81", "title": "Mixing several tracks", "statement": "a.blend(b, Plus).blend(c, Plus)... over any number of tracks of one format and rate is accepted, has that rate, is as long as the shortest track and holds the running saturating sum of the tracks' samples. The sum is exact for integer samples whose magnitudes add up to at most full scale, and for floats within half an ulp of 1 per addition. Integer tracks that never exceed that bound may be mixed in any order; with louder ones, or with floats, the order can be heard (refuted).", "quantifier": "every number of tracks, all streams that keep the contract, every frame and channel, all permutations", "why_tests_cant": "unbounded number of tracks and all orders; rounding accumulates", "anchors": ["src/streaming.rs: Stream::blend", "src/ops.rs: Plus", "src/chan.rs: Add"]}
{"id": "C82", "title": "Gain", "statement": "Amplify by one gain keeps the order of samples for a gain >= 0 and reverses it for one <= 0. It never makes a sample louder, except that the integers' MAX by MIN gives MIN. Applying two gains one after the other, or their product at once, differs by at most one integer code or two float steps (2^-24, 2^-53); fading a mix or mixing the faded tracks differs by at most one code or four steps if the tracks' magnitudes add up to at most full scale. Both hold for streams of any length frame by frame, with equal rates and lengths. Exact equality is refuted in both cases.", "quantifier": "all samples of every format, all streams that keep the contract, every frame and channel", "why_tests_cant": "2^32 pairs for 16-bit, 2^128 for f64; arbitrary streams", "anchors": ["src/chan.rs: Mul", "src/ops.rs: Amplify, Plus", "src/streaming.rs: Stream::blend"]}
{"id": "C83", "title": "Resampling is linear", "statement": "Lowering a stream's rate (whole-number rates S down to R) treats samples linearly. If around an output frame the levels of a third source are alpha times those of a first plus beta times those of a second, within t, then so are the levels of the output frames, within (1 + |alpha| + |beta|)(S/R + 6) roundings plus t. Hence mixing two tracks with Plus before resampling, or resampling them and adding, and applying a constant gain with Amplify before or after resampling, agree within (3(S/R + 6) + 1) and ((1 + |gain|)(S/R + 6) + 1) roundings, as long as the mixed samples themselves do not saturate. The resampler itself adds no saturation. Exact equality is refuted.", "quantifier": "all whole-number rates, all sources that keep the contract, of any formats and length, all destination formats, every interior frame and channel", "why_tests_cant": "relates three runs on arbitrary signals; the error bound has to hold for every length, rate pair and signal", "anchors": ["src/streaming.rs: Sink::stream", "src/audio.rs: Audio::extend", "src/ops.rs: Plus, Amplify"]}
{"id": "C84", "title": "Raw buffers with user-defined frame types", "statement": "The raw-buffer functions accept any type that implements the safe trait Frame. For a type laid out as an array of n > 0 channels (size n channels, alignment of a channel, every bit pattern a value), any n, they work as for the crate's own frames: a buffer that is not whole frames panics and is freed; otherwise frame i is exactly the samples i*n.., writes through the sample slice show in the frames, and dropping the audio frees the buffer exactly once with the layout it was allocated with. A zero-sized type always panics (division by zero) and the buffer is freed. These are exactly the safe types: with any other alignment dropping a non-empty audio frees with the wrong layout, and with any bit pattern that is no value of the type some buffer makes reading a frame undefined. That every implementation of Frame is safe to use is therefore refuted.", "quantifier": "all channel types, all user frame types of a whole number of samples, all heaps and owned buffers", "why_tests_cant": "undefined behaviour need not show in a test run; frame types are an open set, and exactness quantifies over all of them", "anchors": ["src/audio.rs: Audio::with_i8_buffer, with_i16_buffer, with_f32_buffer, with_f64_buffer, as_i8_slice", "src/frame.rs: Frame"]}
{"id": "C85", "title": "Raising the sample rate", "statement": "Raising a stream's rate from S to R > S (whole numbers) makes each output frame p of at most two source frames: i, the first at or after p, with weight R/S - t (t = R i / S - p, when t < 1), and i - 1, with weight max(0, 1 + t - R/S); integer formats cap a weight at 1. The level is the weighted sum, limited to the format's range, within 6 * R/S roundings (6 roundings in integer formats) plus (R/S + p + 6) 2^-49. The last frame, when the new length R n / S is not whole, has only the share of the last source frame that hangs over. Hence: raising the rate is linear where nothing is limited; where both contribute a steady level is kept; no frame is louder than R/S times the loudest source sample (1 times in integer formats); a frame further than one frame from every source frame is exactly silent, so a ratio above 2 leaves gaps. This needs source frames whose exact position is a whole number to be placed there, which holds for all pairs of usual rates, and whenever the computed ratio is not more than 2^-54 below R/S. That a steady level is kept everywhere, that raising never makes louder, and that all rates place frames exactly, are refuted.", "quantifier": "all whole-number rates, all sources that keep the contract, of any formats and length, all destination formats, every frame and channel", "why_tests_cant": "the pattern depends on the rate pair, and misplacement by one rounding shows only at certain positions of certain rate pairs; error bounds over all lengths", "anchors": ["src/streaming.rs: Sink::stream", "src/audio.rs: Audio::extend", "src/streaming.rs: Resampler"]}
{"id": "C86", "title": "User-defined frame types and streams: provided methods and adaptors", "statement": "For a user's Frame type whose channels and channels_mut show the same channels: the provided from_f64, from_channel and from_mono set every channel; lerp is channelwise as far as all three frames have channels, further channels are those of Default; Blend::mix_frames is channelwise as far as both frames have channels, further channels are those of the destination; whatever else the type stores is kept; a panic is that of the first channel that panics. take of any stream makes the first n calls of next and never another; blend of any streams is the frame-wise mix, calls the right stream only after the left one gave a frame, and ends with either; lengths stay true; rates are negotiated as for the crate's streams. On the crate's types all of these are what the other properties are about. With the provided convert, any blend that involves a user's frame type panics at the first pair of frames, even if both types are the same.", "quantifier": "all frame types of any number of channels over the crate's channel types, all frame values and operators, all streams of any frames, all lengths", "why_tests_cant": "the implementors are the users' types: tests see those of the crate only", "anchors": ["src/frame.rs: Frame (provided methods)", "src/ops.rs: Blend::mix_frames", "src/streaming.rs: Stream::take", "src/streaming.rs: Stream::blend", "src/streaming.rs: TakeStream, BlendStream"]}
{"id": "C87", "title": "Targets with another pointer width, release builds", "statement": "On targets with 16-, 32- or 64-bit usize, with or without overflow checks, Sink::stream, flush, Audio::sink, extend and with_stream do the same as on a 64-bit debug build, with these exceptions. A debug build of Sink::stream panics (overflow in ceil_usize) exactly when the first source frame beyond the sink lies past usize::MAX with a fractional position, which cannot happen on 64-bit targets, nor if twice the sink's length plus the ratio of the rates plus 1 is at most usize::MAX, and (overflow of the loop counter) exactly when usize::MAX frames have been read; so an endless stream into a sink that never fills panics there instead of running forever. extend and with_stream never panic for the first reason; they give the same result if the buffer fits into isize::MAX bytes (twice the old length included), and otherwise panic, in release builds too, where the sum of the lengths wraps. That Sink::stream does the same on every target is refuted by a ratio above 2^32.", "quantifier": "all targets and builds, all sinks, buffers and streams, all rates including zero, negative, infinite and NaN", "why_tests_cant": "tests run on one target, and the differences need positions or lengths near the largest usize", "anchors": ["src/math.rs: ceil_usize", "src/streaming.rs: Sink::stream", "src/streaming.rs: Sink::flush", "src/audio.rs: Audio::sink", "src/audio.rs: extend_internal", "src/audio.rs: Audio::with_stream"]}
{"id": "C88", "title": "Arithmetic and conversion of amplitudes", "statement": "Every sample stands for a number in [-1, 1]. For each channel type, + and - give the sum and difference of the numbers, limited to [-1, 1], within half a code (integers) or half an ulp below 2 (floats); * gives the product within two codes or half an ulp below 1; negation is exact. Both conversions between any two channel types (Into, and the one Frame::convert uses) keep the number within a stated error: none when widening integers or floats, 3*2^-24 or 3*2^-53 from integers to floats, half a code and 1/256 of that from floats to integers, one code from 16 to 8 bits, 2^-25 from Ch64 to Ch32. Hence operating then converting and converting then operating agree within the sum of the errors, also for a mix of any number of samples, saturating or not; and at the level of buffers, mixing any number of tracks and converting the mix with with_stream agrees within that error with converting every track and mixing. That the two orders give the same samples is refuted (silence + silence, 8 to 16 bits), the bound for sums is reached, and the product being within one code is refuted.", "quantifier": "all pairs of channel types, all in-range samples; any number of tracks of any lengths at a whole rate", "why_tests_cant": "16 pairs of types times all operand pairs, and sums of unbounded many saturating terms", "anchors": ["src/chan.rs: impl Add/Sub/Mul/Neg for Ch8, Ch16, Ch32, Ch64", "src/chan.rs: From conversions, to_f64, from_f64", "src/frame.rs: Frame::convert", "src/ops.rs: Plus", "src/audio.rs: Audio::with_stream"]}
{"id": "C89", "title": "Lowering the sample rate: what each frame is made of", "statement": "Lowering a stream's rate from S to R <= S (whole numbers) makes each output frame the mean of the source frames weighted by time: with time counted in output frames, source frame i sounds from (R (i - 1) + S) / S to (R i + S) / S, and output frame p gets it with the length of what falls into [p, p + 1]. The level is that sum within (S/R + 7) times (one rounding of the format plus (p + 6) 2^-49). The shares of an output frame total 1, those of frame 0 only R/S, and every source frame counts R/S in all. When the new length R n / S is not whole, the last frame gets the shares of only those source frames that lie strictly before it; if a source frame lies exactly at its position and the ratio is not rounded up past it, the last frame is exactly silent. The full statement about the last frames needs source frames whose exact position is a whole number to be placed there, which holds for all pairs of usual rates. That every source frame is heard is refuted: of four frames from 48 to 32 kHz the fourth is lost.", "quantifier": "all whole-number rates with R <= S, all sources that keep the contract, of any formats and length, all destination formats, every frame and channel", "why_tests_cant": "the weights depend on the rate pair and the position, and are sums of rounded products of a rounded ratio; tests sample few rate pairs, and cannot bound the drift over long streams", "anchors": ["src/streaming.rs: Sink::stream", "src/audio.rs: Audio::extend", "src/streaming.rs: Resampler"]}
{"id": "C90", "title": "Memory over any history of calls", "statement": "A program owns any number of raw sample buffers, vectors of frames and Audio buffers, and calls with_i8_buffer .. with_f64_buffer, with_frames, get, get_mut, iter, the slice views, sink, drain, extend (also one that panics), the conversions into Vec, Box<[F]> and raw boxed slices, and drop on them, in any order. If it never turns an Audio that has frames into a raw boxed slice (Box<[i8]> .. Box<[f64]>), no call reads or writes memory that was freed, is out of bounds or was never written, and no call frees memory twice or with a layout other than it was allocated with. After every call each variable holds exactly the samples it should, and every live allocation belongs to exactly one variable; when all variables have gone out of scope nothing is left allocated. This condition is exact: a program that turns an Audio with frames into a raw boxed slice and lets its variables go out of scope always has undefined behaviour. Reading or writing the raw slice is a use after free even after any number of calls on other variables, and dropping it is a double free.", "quantifier": "All programs (finite sequences of calls on any number of variables), all sample values, all four channel types, all layouts, all choices the standard library leaves open (capacity, position of the frames in the ring, when memory moves)", "why_tests_cant": "The capacity, the head of the VecDeque ring and reallocation are chosen by the standard library and differ between versions and histories; a use after free usually goes unnoticed when a test runs.", "anchors": ["src/audio.rs:46-50", "src/audio.rs:115-224", "src/audio.rs:238-316", "src/audio.rs:318-400", "src/audio.rs:478-553"]}
{"id": "C91", "title": "The sign of a zero minimum has no effect", "statement": "Rust leaves open whether f64::min of +0.0 and -0.0 returns the one or the other, and the compiler may choose differently from call to call. Sink::stream takes the minimum of a fractional position and the ratio of the sample rates, which can both be zero with different signs (a sink at 0 Hz and a stream at a negative rate, say). The result does not depend on the choice: whatever each iteration's minimum returns, sink, stream and outcome are the same bit for bit, including the signs of zero samples; the same holds for Audio::extend. The min and max with which float channels are clamped to -1 .. 1 leave no choice at all.", "quantifier": "All choices of each iteration, all sinks, resampler states, streams and sample rates (including zero, negative, infinite and NaN), all layouts and channel types", "why_tests_cant": "A test sees the one choice of the compiler it was built with; other compilers, optimisation levels and processors (minsd, fminnm) choose differently.", "anchors": ["src/streaming.rs:107-109", "src/streaming.rs:72-125", "src/chan.rs:112-125", "src/audio.rs:273-316"]}
{"id": "C92", "title": "A sound heard later is heard the same, later", "statement": "Convert a sound and a delayed copy of it from rate S to rate R (whole numbers), where the delay is m source frames and lasts exactly q output frames (R m = S q). Output frame p + q of the copy then has the level of output frame p of the original, and the output frames before q are silent, both within the tolerances of C85 (R > S) and C89 (R <= S): what a moment sounds like does not depend on how long the stream has been playing. Only the source frames that contribute to the output frame have to agree, so this also holds for streams that differ elsewhere. When the rate is raised, source frames whose exact position is a whole number must be placed there by the computed ratio, which holds for all pairs of usual rates. Without that condition it is refuted: from 5 to 7 kHz a click of 10000 at source frame 5 is heard in output frame 7 only, but 40 frames later 4000 of it is heard one output frame early. Equality to the last bit is refuted too: from 48 to 32 kHz a sample 16000 becomes 15999 when delayed by 3 frames.", "quantifier": "all whole-number rates, all delays with R m = S q, all pairs of sources that keep the contract, of any formats and length, all destination formats, every frame and channel", "why_tests_cant": "relates two conversions at any two positions of arbitrarily long streams; the rounded ratio makes the positions drift, and at which pairs of rates a whole position is missed follows no simple rule", "anchors": ["src/streaming.rs: Sink::stream", "src/audio.rs: Audio::extend", "src/streaming.rs: Resampler"]}
{"id": "C93", "title": "How much of a stream a sink uses up", "statement": "Streaming from whole rate S into a new sink at whole rate R uses exactly u = ceil(e S / R) source frames, where e is the smaller of the number of slots and of floor(R n / S) for a stream of n frames (all slots for an endless one): the frames whose position lies in the covered part and no others, so the rest can be streamed later. Filling a second uses a second. This needs source frames whose exact position is a whole number to be placed there by the computed ratio (all pairs of usual rates do); without it an endless stream loses u frames, or u + 1 if frame u lies exactly at the end of the buffer. A buffer that is drained c times into new sinks has lost exactly c u frames from its front. Playing in blocks therefore does not keep time (refuted): every block of 512 frames at 48 kHz uses 471 frames at 44.1 kHz, although only 470.4 last that long. From 5 to 7 kHz 63 slots use 46 frames instead of 45 (refuted for all rates).", "quantifier": "all whole-number rates, all streams that keep the contract (finite or endless), all sinks without history, any number of blocks, all formats", "why_tests_cant": "the count depends on the rate pair, the number of slots and the rounding of the ratio; a test checks single combinations", "anchors": ["src/streaming.rs:72-125", "src/audio.rs:245-266", "src/audio.rs:453-482"]}
{"id": "C94", "title": "A resampler that is handed on plays one block", "statement": "A stream call either runs its source to the end or leaves the resampler's position at or behind the end of the frames the call covered; an endless stream leaves it behind the end of the buffer at any rates and any earlier state. A sink whose resampler is behind the end of its buffer pulls nothing from any stream (if rate ratio is finite), replaces the frames the call covers by silence, leaves the others but the first alone, keeps its left-over frame and stays behind the end. Hence a program that fills buffers of the same size block by block and gives each new sink the resampler of the previous one hears one block of its endless streams and only silence afterwards, for any number of blocks. (That the blocks join up to what one large buffer would receive is refuted.)", "quantifier": "every layout, channel type, rate, stream, resampler state, block size and number of blocks", "why_tests_cant": "any number of blocks and any position in floating point; a test of one or two blocks cannot show that the silence never ends", "anchors": ["src/streaming.rs: Resampler, Sink::resampler, Sink::stream lines 68-125", "src/audio.rs: AudioSink::resampler"]}
{"id": "C95", "title": "Converting, mixing and resampling keep the order of samples", "statement": "If no sample of one source is above the corresponding sample of another (Rust's <=, samples within [-1, 1]) and the same holds for two sinks at the same rate and position (finite, not negative), then streaming the sources into the sinks, at any non-negative ratio of the rates up to 2^100, from any format and layout to any, has the same outcome (the same panic if any) and leaves buffers and left-over frames in the same order; so do flush and extend. Frame::convert keeps the order, and so do blends with Src, Dest, Clear and Plus, and Amplify with gains that are not negative. This is exact, to the last bit, in spite of rounding, truncation and saturation. That samples which differ still differ afterwards, and that order survives a negative gain, are refuted.", "quantifier": "every layout, channel type, pair of ordered streams and sinks, rate ratio and position", "why_tests_cant": "a relation between two runs for all pairs of inputs and all ratios; any single non-monotone rounding step would break it", "anchors": ["src/streaming.rs: Sink::stream, flush", "src/frame.rs: Frame::convert, blend", "src/chan.rs: Add, Mul, from_f64"]}
{"id": "C96", "title": "Lowering the sample rate: sum and mean of the samples", "statement": "When audio is lowered from a whole rate S to a whole rate R <= S, the first d destination frames of any channel add up, within d*(S/R+7) quantisation steps (plus float rounding), to the sum of the source samples, each weighted by the part of its time R/S that falls before the end of those d frames: R/S for one that has ended by then, 0 for one not yet begun. If the new length is a whole number of frames and the source ends in silence for those frames that hang over the end, the mean level of the result is the mean level of the source, within S/R+7 steps. That the mean is kept without that silence is refuted.", "quantifier": "all pairs of whole rates with R <= S, layouts, channel types, streams, lengths up to 2^51/R and all samples", "why_tests_cant": "a bound on a sum of accumulated rounding and truncation errors for every length, rate pair and signal", "anchors": ["src/streaming.rs: Sink::stream", "src/audio.rs: extend"]}
{"id": "C97", "title": "Nearby sources give nearby results", "statement": "Two streams of the same whole rate and length, mixed into two sinks of the same whole rate, whose samples in a channel are everywhere at most e apart: when the rate is lowered the results are at most e apart plus twice the error bound (S/R+7) quantisation steps (plus float rounding); when it is raised they are at most e apart in the integer formats and R/S*e in the float formats, plus twice that bound's error; the last, partial frame likewise. That samples one code apart stay one code apart is refuted.", "quantifier": "all pairs of whole rates, layouts, channel types, pairs of streams, lengths up to 2^51/R, all e >= 0 and all samples within full scale", "why_tests_cant": "a stability bound over all pairs of signals, rate pairs and lengths", "anchors": ["src/streaming.rs: Sink::stream", "src/audio.rs: extend"]}
{"id": "C98", "title": "Raising the sample rate: sum and mean of the samples", "statement": "When audio of a whole rate S is raised to a whole rate R > S, the d frames that a channel of the result has (the last one full or not) add up, within d*(6*steps*applied ratio) (plus float rounding), to the sum of the source samples, each counted R/S times in the float formats and, in the integer formats, as its fractional position plus min(1, R/S - that fraction), which lies between 1 and 2. So in the float formats, for audio not above the level S/R and a whole number of new frames, the mean level is kept. In the integer formats the mean is not kept (refuted).", "quantifier": "all pairs of whole rates with S < R, layouts, channel types, streams, lengths up to 2^51/R, and all samples that stay within range when multiplied by R/S (in integer formats: all samples)", "why_tests_cant": "a bound on a sum of accumulated rounding errors for every length, rate pair and signal", "anchors": ["src/streaming.rs: Sink::stream", "src/audio.rs: extend"]}
{"id": "C99", "title": "Nearby samples stay nearby through arithmetic, conversion and mixing", "statement": "For samples within full scale: the sum or difference of two samples moves by no more than the two operands together (exactly so in the integer formats, saturating or not; plus rounding in the float formats); a product likewise up to its rounding; negation keeps distances; conversion of samples and of frames between any formats and layouts keeps them up to the error of the conversions. Interpolating (lerp) between samples or frames moves by no more than twice the first operand, the second and the share together, plus rounding. So blending two pairs of nearby frames with Src, Dest, Clear, Plus or Amplify gives nearby frames, and mixing any number of tracks moves the mix by no more than the tracks together. That an integer product moves no more than its factors is refuted (126*-128 and 127*-128).", "quantifier": "all samples within full scale, all channel types, layouts, operators named, any number of tracks of any length", "why_tests_cant": "a stability bound over all pairs of samples and all formats, including pairs at which one side saturates and the other does not", "anchors": ["src/chan.rs: Add, Sub, Mul, Neg, From", "src/frame.rs: convert", "src/ops.rs: Blend"]}
{"id": "C100", "title": "A sound that repeats keeps repeating: pitch is kept", "statement": "If a source at S Hz repeats every m frames (up to e), and m source frames last exactly q frames at R Hz (R*m = S*q), then the sound extended into a buffer at R Hz repeats every q frames, from its second frame to its last full one: frames p and p+q differ by at most e (in float formats raised in rate, R/S times e) plus twice the stated error of a resampled sample. That it repeats exactly, or from the very first frame on, is refuted (48 kHz to 32 kHz, Ch16: -12333 then -12332; 6666 then 7666).", "quantifier": "all whole-number rates below the stated bounds, all sources, formats, layouts, periods and positions", "why_tests_cant": "a relation between all pairs of frames one period apart, over all periods and pairs of rates, through a ratio that floating point cannot represent", "anchors": ["src/streaming.rs: Sink::stream", "src/audio.rs: extend"]}
{"id": "C101", "title": "Interpolation reaches the point on the way, between samples up to half the range apart", "statement": "For samples a, b and a share t >= 0 within full scale: if a and b are at most half the full range apart, a.lerp(b, t) is a + t*(b - a) up to the rounding of one difference, one product and one sum; if they are farther apart the difference saturates and the result is t away from a whatever b is. The same holds for frames channel by channel. That lerp is near a + t*(b - a) for any two samples is refuted (Ch8: half way from MIN to MAX is -64).", "quantifier": "all samples within full scale, all channel types and layouts, all shares t >= 0", "why_tests_cant": "an error bound over all triples of samples, with a saturation case that appears only for samples far apart", "anchors": ["src/chan.rs: Channel::lerp", "src/frame.rs: Frame::lerp"]}
{"id": "C102", "title": "A pause in the source is a pause in the result, to the last bit", "statement": "When audio is extended with a stream of another (whole-number) rate, every added frame all of whose neighbouring source frames (at most one destination frame away) are silent in the destination format is exactly silent; the same holds for each channel by itself. So if source frames i0 to i1 are silent and the format keeps silence (float source, same format, or Ch16 to Ch8), all added frames strictly inside the pause are silent, up to the end of the buffer when the pause lasts to the end of the source. For other integer formats this is refuted (Ch8 silence at 16 bits is code 127 after resampling).", "quantifier": "all whole-number rates within the stated bounds, all streams, formats, layouts, pauses and positions", "why_tests_cant": "exact silence for every position, weight and rate pair, including the flushed last frame", "anchors": ["src/streaming.rs: Sink::stream", "src/audio.rs: extend"]}
