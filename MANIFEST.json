{
 "claims": [
  {
   "property": "C01",
   "status": "proved",
   "theorems": [
    "C01_add_sub_saturate",
    "C01_add_sub_laws"
   ],
   "note": ""
  },
  {
   "property": "C02",
   "status": "proved",
   "theorems": [
    "C02_mul_exact",
    "C02_mul_laws"
   ],
   "note": ""
  },
  {
   "property": "C03",
   "status": "proved",
   "theorems": [
    "C03_div8",
    "C03_div16",
    "C03_div16_panic_set",
    "C03_div16_total_refuted"
   ],
   "note": "Includes the exact panic set; totality of Ch16 division is refuted (MIN / -1)."
  },
  {
   "property": "C04",
   "status": "proved",
   "theorems": [
    "C04_div_max8",
    "C04_div_max16",
    "C04_div_max_neutral_refuted"
   ],
   "note": "Exact law proved; the naive law a / MAX == a is refuted."
  },
  {
   "property": "C05",
   "status": "proved",
   "theorems": [
    "C05_neg_int",
    "C05_neg_int_value",
    "C05_neg_float",
    "C05_cancel_refuted"
   ],
   "note": "x + (-x) == MID is refuted for integers (the result is -1)."
  },
  {
   "property": "C06",
   "status": "proved",
   "theorems": [
    "C06_widen",
    "C06_narrow"
   ],
   "note": ""
  },
  {
   "property": "C07",
   "status": "proved",
   "theorems": [
    "C07_int_f64_roundtrip"
   ],
   "note": ""
  },
  {
   "property": "C08",
   "status": "proved",
   "theorems": [
    "C08_int_f32_roundtrip"
   ],
   "note": ""
  },
  {
   "property": "C09",
   "status": "proved",
   "theorems": [
    "C09_int_to_float_range",
    "C09_int_to_float_ends",
    "C09_int_to_float_increasing",
    "C09_int_to_float_accuracy"
   ],
   "note": ""
  },
  {
   "property": "C10",
   "status": "proved",
   "theorems": [
    "C10_from_f64_saturates",
    "C10_from_f64_monotone",
    "C10_direct_monotone",
    "C10_direct_ends"
   ],
   "note": ""
  },
  {
   "property": "C11",
   "status": "proved",
   "theorems": [
    "C11_quantisation_error",
    "C11_direct_error"
   ],
   "note": ""
  },
  {
   "property": "C12",
   "status": "proved",
   "theorems": [
    "C12_results_in_range",
    "C12_new",
    "C12_results_value",
    "C12_division_by_zero",
    "C12_nan_becomes_max",
    "C12_infinite",
    "C12_new_special"
   ],
   "note": ""
  },
  {
   "property": "C13",
   "status": "proved",
   "theorems": [
    "C13_mul_in_range",
    "C13_mul_laws",
    "C13_mul_nan_refuted"
   ],
   "note": "The refuted theorem shows the in-range hypothesis is needed."
  },
  {
   "property": "C14",
   "status": "proved",
   "theorems": [
    "C14_from_f64_is_raw",
    "C14_to_f64_is_raw",
    "C14_from_f64_too_large",
    "C14_eq_reflexive_iff_not_nan",
    "C14_range_invariant_refuted",
    "C14_eq_contract_refuted"
   ],
   "note": "Range invariant and Eq contract refuted with witnesses."
  },
  {
   "property": "C15",
   "status": "proved",
   "theorems": [
    "C15_f32_f64_roundtrip",
    "C15_f64_to_f32",
    "C15_f64_to_f32_monotone"
   ],
   "note": ""
  },
  {
   "property": "C16",
   "status": "proved",
   "theorems": [
    "C16_lerp_never_panics",
    "C16_lerp_mid_int",
    "C16_lerp_mid_float",
    "C16_lerp_max_int",
    "C16_lerp_max_float",
    "C16_lerp_max_exact_refuted"
   ],
   "note": "Integer end point: exact iff; float end point: within 2^(1-prec); exact equality refuted."
  },
  {
   "property": "C17",
   "status": "proved",
   "theorems": [
    "C17_widen_paths_agree",
    "C17_narrow_paths_close",
    "C17_narrow_paths_equal_refuted"
   ],
   "note": "Equality of the two Ch16->Ch8 paths refuted; they differ by at most one code."
  },
  {
   "property": "C18",
   "status": "proved",
   "theorems": [
    "C18_add_sub_mul_neg_channelwise",
    "C18_div_channelwise",
    "C18_lerp_channelwise"
   ],
   "note": ""
  },
  {
   "property": "C19",
   "status": "proved",
   "theorems": [
    "C19_convert_channel_map",
    "C19_average_correct"
   ],
   "note": ""
  },
  {
   "property": "C20",
   "status": "proved",
   "theorems": [
    "C20_convert_identity",
    "C20_layout_round_trip"
   ],
   "note": ""
  },
  {
   "property": "C21",
   "status": "proved",
   "theorems": [
    "C21_zero_is_silence",
    "C21_convert_silence",
    "C21_silence_iff",
    "C21_integer_silence_refuted"
   ],
   "note": "Exactly which type pairs keep silence (C21_silence_iff); that integer silence always stays silence is refuted with witnesses."
  },
  {
   "property": "C22",
   "status": "proved",
   "theorems": [
    "C22_uniform_constructors",
    "C22_from_channels",
    "C22_new_converts_each_channel"
   ],
   "note": ""
  },
  {
   "property": "C23",
   "status": "proved",
   "theorems": [
    "C23_src_dest_clear",
    "C23_one_channel"
   ],
   "note": ""
  },
  {
   "property": "C24",
   "status": "proved",
   "theorems": [
    "C24_plus_is_saturating_sum",
    "C24_plus_silence_neutral",
    "C24_amplify_is_product",
    "C24_amplify_neutral_absorbing",
    "C24_plus_associative_refuted"
   ],
   "note": "Associativity of Plus refuted."
  },
  {
   "property": "C25",
   "status": "proved",
   "theorems": [
    "C25_compress_panics",
    "C25_compress_stream_panics"
   ],
   "note": ""
  },
  {
   "property": "C26",
   "status": "proved",
   "theorems": [
    "C26_one_channel_panics",
    "C26_pan_routing",
    "C26_surround_mostly_silent",
    "C26_pan_right_reaches_right_refuted"
   ],
   "note": "For every cos/sin; 'hard right reaches the right speakers' refuted."
  },
  {
   "property": "C27",
   "status": "proved",
   "theorems": [
    "C27_pan_mono"
   ],
   "note": "Assumes sin/cos of a non-finite angle is NaN (IEEE libm), as a theorem hypothesis."
  },
  {
   "property": "C28",
   "status": "proved",
   "theorems": [
    "C28_take_length",
    "C28_take_finite",
    "C28_take_infinite",
    "C28_take_pulls"
   ],
   "note": ""
  },
  {
   "property": "C29",
   "status": "proved",
   "theorems": [
    "C29_blend_length",
    "C29_blend_frames",
    "C29_blend_complete",
    "C29_operators_total",
    "C29_lengths_true"
   ],
   "note": ""
  },
  {
   "property": "C30",
   "status": "proved",
   "theorems": [
    "C30_blend_rates",
    "C30_nan_rejected",
    "C30_told"
   ],
   "note": ""
  },
  {
   "property": "C31",
   "status": "proved",
   "theorems": [
    "C31_frame_blend_audio_panics",
    "C31_audio_blend_frame_works"
   ],
   "note": ""
  },
  {
   "property": "C32",
   "status": "proved",
   "theorems": [
    "C32_frame_fills_sink"
   ],
   "note": ""
  },
  {
   "property": "C33",
   "status": "proved",
   "theorems": [
    "C33_finite_stream",
    "C33_finite_or_panic",
    "C33_fuel"
   ],
   "note": "For every honest finite stream; negotiation panic characterised separately."
  },
  {
   "property": "C34",
   "status": "proved",
   "theorems": [
    "C34_equal_rate_copy"
   ],
   "note": "Float formats: equal for in-range samples; also covers streams longer than the buffer."
  },
  {
   "property": "C35",
   "status": "proved",
   "theorems": [
    "C35_returned",
    "C35_returns",
    "C35_sum_unique"
   ],
   "note": ""
  },
  {
   "property": "C36",
   "status": "proved",
   "theorems": [
    "C36_saved",
    "C36_index_and_frame"
   ],
   "note": ""
  },
  {
   "property": "C37",
   "status": "proved",
   "theorems": [
    "C37_output_in_range"
   ],
   "note": ""
  },
  {
   "property": "C38",
   "status": "proved",
   "theorems": [
    "C38_weights"
   ],
   "note": ""
  },
  {
   "property": "C39",
   "status": "proved",
   "theorems": [
    "C39_silence",
    "C39_silence_ratio",
    "C39_infinite_ratio_refuted"
   ],
   "note": "Holds for finite converted weights (all ratios up to 2^126); for an infinite ratio refuted."
  },
  {
   "property": "C40",
   "status": "proved",
   "theorems": [
    "C40_second_stream",
    "C40_two_streams",
    "C40_concatenation_refuted"
   ],
   "note": "Exact effect of a second stream; equality with concatenation refuted."
  },
  {
   "property": "C41",
   "status": "proved",
   "theorems": [
    "C41_partial_lost"
   ],
   "note": ""
  },
  {
   "property": "C42",
   "status": "proved",
   "theorems": [
    "C42_flush"
   ],
   "note": ""
  },
  {
   "property": "C43",
   "status": "proved",
   "theorems": [
    "C43_with_frame",
    "C43_with_silence",
    "C43_with_frames",
    "C43_get",
    "C43_get_mut",
    "C43_iter_mut",
    "C43_is_empty"
   ],
   "note": ""
  },
  {
   "property": "C44",
   "status": "proved",
   "theorems": [
    "C44_extend_appends",
    "C44_added_valid"
   ],
   "note": "Length given by the f64 computation (spec frames_for)."
  },
  {
   "property": "C45",
   "status": "proved",
   "theorems": [
    "C45_outcome",
    "C45_unsinkable",
    "C45_no_panic_refuted",
    "C45_one_second_refuted"
   ],
   "note": "Exact outcome for honest finite streams; 'finite streams never panic' refuted for every buffer and format (147 frames and one second, 44.1 to 48 kHz)."
  },
  {
   "property": "C46",
   "status": "proved",
   "theorems": [
    "C46_sink_panics_iff",
    "C46_confined"
   ],
   "note": "Assumes the buffer length fits in usize."
  },
  {
   "property": "C47",
   "status": "proved",
   "theorems": [
    "C47_drain",
    "C47_take",
    "C47_blend",
    "C47_blend_ended",
    "C47_any_stream",
    "C47_sink",
    "C47_sink_any",
    "C47_sink_equal_rate",
    "C47_unused"
   ],
   "note": "If the right side of a blend ends first, one extra left frame is removed (C47_blend_ended)."
  },
  {
   "property": "C48",
   "status": "proved",
   "theorems": [
    "C48_with_buffer",
    "C48_raw_slice",
    "C48_write"
   ],
   "note": ""
  },
  {
   "property": "C49",
   "status": "proved",
   "theorems": [
    "C49_with_buffer",
    "C49_drop",
    "C49_read",
    "C49_into_raw",
    "C49_into_raw_ownership_refuted",
    "C49_into_frames"
   ],
   "note": "Abstract heap with live/freed blocks; 'ownership back' refuted for every non-empty buffer."
  },
  {
   "property": "C50",
   "status": "proved",
   "theorems": [
    "C50_whole_factor"
   ],
   "note": "Ch32 targets: m up to 2^24 (the weight must be exact)."
  },
  {
   "property": "C51",
   "status": "proved",
   "theorems": [
    "C51_half_rate"
   ],
   "note": "Any number of source frames; for an odd number the last destination frame is silence. Float targets need in-range sources."
  },
  {
   "property": "C52",
   "status": "proved",
   "theorems": [
    "C52_equal_rate",
    "C52_length",
    "C52_length_refuted"
   ],
   "note": "Length: exact for whole rates within 2^53; refuted for fractional rates (44100/1.001 Hz: 3 frames become 4, the extra one silent)."
  },
  {
   "property": "C53",
   "status": "proved",
   "theorems": [
    "C53_panic_loses_audio",
    "C53_infinite_panics"
   ],
   "note": ""
  },
  {
   "property": "C54",
   "status": "proved",
   "theorems": [
    "C54_indices"
   ],
   "note": ""
  },
  {
   "property": "C55",
   "status": "proved",
   "theorems": [
    "C55_infinite_stream_fills",
    "C55_infinite_stream_hangs"
   ],
   "note": ""
  },
  {
   "property": "C56",
   "status": "proved",
   "theorems": [
    "C56_whole_rates",
    "C56_safe"
   ],
   "note": "Exact condition for the panic; C56_safe gives the practical sufficient conditions."
  },
  {
   "property": "C57",
   "status": "proved",
   "theorems": [
    "C57_values",
    "C57_local"
   ],
   "note": ""
  },
  {
   "property": "C58",
   "status": "proved",
   "theorems": [
    "C58_sink",
    "C58_extend",
    "C58_buffer",
    "C58_user"
   ],
   "note": ""
  },
  {
   "property": "C59",
   "status": "proved",
   "theorems": [
    "C59_drained",
    "C59_equal_rate"
   ],
   "note": "C59_case shows frames that stay behind at half the rate."
  },
  {
   "property": "C60",
   "status": "proved",
   "theorems": [
    "C60_there_and_back"
   ],
   "note": ""
  },
  {
   "property": "C61",
   "status": "proved",
   "theorems": [
    "C61_integers",
    "C61_division",
    "C61_float_and_integer",
    "C61_integer_and_float",
    "C61_full_scale",
    "C61_silence",
    "C61_silence_refuted",
    "C61_raw",
    "C61_raw_int"
   ],
   "note": "Neutrality of integer silence of another type is refuted."
  },
  {
   "property": "C62",
   "status": "proved",
   "theorems": [
    "C62_monotone",
    "C62_between",
    "C62_between_float",
    "C62_frames"
   ],
   "note": ""
  },
  {
   "property": "C63",
   "status": "proved",
   "theorems": [
    "C63_no_drift"
   ],
   "note": ""
  },
  {
   "property": "C64",
   "status": "proved",
   "theorems": [
    "C64_level",
    "C64_first_frame_refuted"
   ],
   "note": "The first appended frame is scaled by R/S; that a constant level is kept from the first frame on is refuted."
  },
  {
   "property": "C65",
   "status": "proved",
   "theorems": [
    "C65_pieces",
    "C65_one_outcome",
    "C65_differing_rates_refuted"
   ],
   "note": "finding: chunked extend at differing rates differs from the whole (C65_differing_rates_refuted)"
  },
  {
   "property": "C66",
   "status": "proved",
   "theorems": [
    "C66_ratio"
   ],
   "note": "both may panic alike (C45)"
  },
  {
   "property": "C67",
   "status": "proved",
   "theorems": [
    "C67_prefix"
   ],
   "note": ""
  },
  {
   "property": "C68",
   "status": "proved",
   "theorems": [
    "C68_commute"
   ],
   "note": ""
  },
  {
   "property": "C69",
   "status": "proved",
   "theorems": [
    "C69_sink",
    "C69_extend",
    "C69_take",
    "C69_blend",
    "C69_take_take",
    "C69_take_all",
    "C69_take_blend",
    "C69_blend_swap",
    "C69_blend_dest",
    "C69_blend_silence"
   ],
   "note": "equivalence is `alike` in SpecLaw.v"
  },
  {
   "property": "C70",
   "status": "proved",
   "theorems": [
    "C70_agree",
    "C70_causes",
    "C70_left_behind",
    "C70_removed",
    "C70_blend",
    "C70_extend",
    "C70_extend_keeps_refuted",
    "C70_call_user",
    "C70_call_take",
    "C70_call_blend",
    "C70_in_step_refuted"
   ],
   "note": "Exact panic set and the state left behind; that the audio survives in one of the two buffers is refuted (147 frames, 44.1 to 48 kHz)."
  },
  {
   "property": "C71",
   "status": "proved",
   "theorems": [
    "C71_is_empty",
    "C71_adapters",
    "C71_streamed",
    "C71_no_effect_refuted",
    "C71_extend"
   ],
   "note": "'Streaming nothing changes nothing' is refuted (the left-over frame is added to the first frame)."
  },
  {
   "property": "C72",
   "status": "proved",
   "theorems": [
    "C72_any_sink",
    "C72_untouched",
    "C72_any_stream",
    "C72_custom_frames",
    "C72_custom_extend",
    "C72_extend",
    "C72_copy"
   ],
   "note": "Custom frame types are refused by the provided convert; hypotheses 'lawful', 'adds' and 'unit_weights' have concrete instances beside the theorems."
  },
  {
   "property": "C73",
   "status": "proved",
   "theorems": [
    "C73_channels",
    "C73_flush",
    "C73_extend",
    "C73_extend_outcome",
    "C73_blend",
    "C73_stereo",
    "C73_front"
   ],
   "note": "Relations `paired`, `sinks_alike`, `routed` in SpecRel.v. Pan mixes channels and is excluded."
  },
  {
   "property": "C74",
   "status": "proved",
   "theorems": [
    "C74_stream",
    "C74_extend",
    "C74_extend_outcome",
    "C74_flush",
    "C74_neg",
    "C74_blend",
    "C74_integers_refuted",
    "C74_integer_source_refuted"
   ],
   "note": "For float buffers; for integer buffers it is refuted (C74_integers_refuted, C74_integer_source_refuted)."
  },
  {
   "property": "C75",
   "status": "proved",
   "theorems": [
    "C75_convert",
    "C75_operators",
    "C75_streams",
    "C75_sinks",
    "C75_flush",
    "C75_extend"
   ],
   "note": "User-defined operators need `keeps_range`; from_f64 itself does not clamp (C14)."
  },
  {
   "property": "C76",
   "status": "proved",
   "theorems": [
    "C76_up_down",
    "C76_down_up",
    "C76_up_up",
    "C76_restored_refuted"
   ],
   "note": "Exact outcome proved; that the signal is restored is refuted (finding: integer upsampling is not compensated, float upsampling clips)."
  },
  {
   "property": "C77",
   "status": "proved",
   "theorems": [
    "C77_many_streams"
   ],
   "note": "Full statement proved, by induction over the streams."
  },
  {
   "property": "C78",
   "status": "proved",
   "theorems": [
    "C78_frame_by_frame",
    "C78_resampler",
    "C78_resampler_refuted",
    "C78_sawtooth",
    "C78_waves",
    "C78_rising_refuted"
   ],
   "note": "Exact outcome proved; that the loop of examples/resampler.rs converts the audio is refuted (finding: the rate told to a frame is ignored and each call clears what the previous one wrote). File access and printing are outside of the model. Sawtooth values: C57."
  },
  {
   "property": "C79",
   "status": "proved",
   "theorems": [
    "C79_levels",
    "C79_law_total",
    "C79_constant_power",
    "C79_centre",
    "C79_left_refuted",
    "C79_right_refuted"
   ],
   "note": "Level law, power and centre proved; the documented meaning of the ends (MIN left, MAX right) is refuted for stereo (finding). One sounding channel; with several, each speaker gets the saturated sum of C26. The accuracy of the platform's sin and cos is a hypothesis; a correctly rounded pair is shown to meet it."
  },
  {
   "property": "C80",
   "status": "proved",
   "theorems": [
    "C80_instance",
    "C80_routing",
    "C80_outcome",
    "C80_panics",
    "C80_no_speakers",
    "C80_middle_silent",
    "C80_at_speaker_refuted"
   ],
   "note": "Exact routing, outcome and panic set proved for every left-to-right CONFIG; that a sound placed at a speaker's location is sent to that speaker is refuted (finding: only the first two and the last speaker are ever used). Assumes channels() and channels_mut() of the user's type show the same channels."
  },
  {
   "property": "C81",
   "status": "proved",
   "theorems": [
    "C81_mixdown",
    "C81_exact_int",
    "C81_error_float",
    "C81_order",
    "C81_order_int_refuted",
    "C81_order_float_refuted"
   ],
   "note": "Exact sum, length and error bounds proved; independence of the mixing order proved for integer tracks that cannot saturate and refuted otherwise (saturation on the way; float rounding)."
  },
  {
   "property": "C82",
   "status": "proved",
   "theorems": [
    "C82_monotone",
    "C82_never_louder",
    "C82_never_louder_refuted",
    "C82_chain",
    "C82_fade_of_mix",
    "C82_chain_exact_refuted",
    "C82_fade_of_mix_exact_refuted"
   ],
   "note": "Monotonicity, the one exception to 'never louder', and the error bounds are proved; the exact laws ((a*g)*h = a*(g*h), (a+b)*g = a*g + b*g) are refuted. The bounds are for samples between -MAX and MAX, i.e. all but the integers' MIN."
  },
  {
   "property": "C83",
   "status": "proved",
   "theorems": [
    "C83_linear",
    "C83_mix",
    "C83_fade",
    "C83_mix_exact_refuted"
   ],
   "note": ""
  },
  {
   "property": "C84",
   "status": "proved",
   "theorems": [
    "C84_arrays",
    "C84_own",
    "C84_zero_size",
    "C84_alignment",
    "C84_values",
    "C84_safe_iff",
    "C84_write",
    "C84_every_frame_safe_refuted"
   ],
   "note": "C84_every_frame_safe_refuted: two frame types that safe code can define (other alignment; a bool inside) lead to undefined behaviour through safe functions"
  },
  {
   "property": "C85",
   "status": "proved",
   "theorems": [
    "C85_frames",
    "C85_last",
    "C85_kept",
    "C85_peak",
    "C85_linear",
    "C85_gaps",
    "C85_aligned",
    "C85_usual_rates",
    "C85_all_aligned_refuted",
    "C85_level_kept_refuted",
    "C85_never_louder_refuted"
   ],
   "note": "Weights, last frame, linearity, level, peak, silence and the placement criterion proved; three expectations refuted (a steady level is kept, raising never makes louder, all rates place frames exactly)."
  },
  {
   "property": "C86",
   "status": "proved",
   "theorems": [
    "C86_constants",
    "C86_lerp",
    "C86_mix_frames",
    "C86_rest",
    "C86_operators",
    "C86_crate_frames",
    "C86_take",
    "C86_blend",
    "C86_lengths",
    "C86_blend_rates",
    "C86_crate_streams",
    "C86_crate_info",
    "C86_foreign",
    "C86_same_type_refuted"
   ],
   "note": "Channelwise laws, adaptors and agreement with the crate types proved; that streams of one user frame type can be blended is refuted."
  },
  {
   "property": "C87",
   "status": "proved",
   "theorems": [
    "C87_stream",
    "C87_exact",
    "C87_release",
    "C87_64_bit",
    "C87_roomy",
    "C87_endless",
    "C87_flush",
    "C87_sink",
    "C87_extend",
    "C87_extend_too_long",
    "C87_extend_infinite",
    "C87_with_stream",
    "C87_same_refuted"
   ],
   "note": "Equality with the 64-bit model, the exact panic condition, and all outcomes of extend proved for every target; that Sink::stream does the same on every target is refuted."
  },
  {
   "property": "C88",
   "status": "proved",
   "theorems": [
    "C88_add",
    "C88_sub",
    "C88_mul",
    "C88_neg",
    "C88_convert",
    "C88_add_convert",
    "C88_sub_convert",
    "C88_mul_convert",
    "C88_neg_convert",
    "C88_sum_convert",
    "C88_mixes",
    "C88_same_refuted",
    "C88_sum_error_reached",
    "C88_product_one_code_refuted"
   ],
   "note": "All errors proved for every pair of channel types and both conversions; equality of the two orders refuted; the bound for integer sums is reached."
  },
  {
   "property": "C89",
   "status": "proved",
   "theorems": [
    "C89_frames",
    "C89_shares",
    "C89_last",
    "C89_usual_rates",
    "C89_all_heard_refuted"
   ],
   "note": "C89_frames (all whole frames), C89_shares (properties of the shares), C89_last (the last, incomplete frame), C89_usual_rates; the expectation that every source frame is heard is false (C89_all_heard_refuted)."
  },
  {
   "property": "C90",
   "status": "proved",
   "theorems": [
    "C90_safe",
    "C90_all_freed",
    "C90_safe_iff",
    "C90_into_raw",
    "C90_every_program_refuted"
   ],
   "note": "Exact characterisation: C90_safe and C90_all_freed for programs that never make a raw slice from an audio with frames, C90_safe_iff shows that this is exactly the set of safe programs, C90_into_raw names the error, C90_every_program_refuted refutes the claim that every program is memory safe (the raw conversions of src/audio.rs:499-553 drop the Vec whose memory they hand out)."
  },
  {
   "property": "C91",
   "status": "proved",
   "theorems": [
    "C91_stream",
    "C91_extend",
    "C91_clamp32",
    "C91_clamp64"
   ],
   "note": "Removes a simplification of the model: Float.v fixes the receiver as the minimum of two zeros; C91 shows that every other choice gives the same results for the crate's frames and sinks."
  },
  {
   "property": "C92",
   "status": "proved",
   "theorems": [
    "C92_raise",
    "C92_raise_before",
    "C92_lower",
    "C92_lower_before",
    "C92_all_rates_refuted",
    "C92_exact_refuted"
   ],
   "note": "C92_raise and C92_lower (the frame p + q is the frame p), C92_raise_before and C92_lower_before (silence before); without the alignment condition, and to the last bit, the expectation is false (C92_all_rates_refuted, C92_exact_refuted). The condition holds for all usual rates by C85_usual_rates and C89_usual_rates."
  },
  {
   "property": "C93",
   "status": "proved",
   "theorems": [
    "C93_used",
    "C93_endless",
    "C93_blocks",
    "C93_blocks_played",
    "C93_keeps_time_refuted",
    "C93_all_rates_refuted"
   ],
   "note": "C93_used (finite and endless streams, aligned rates), C93_endless (all whole rates), C93_blocks and C93_blocks_played (a player filling block after block). Two expectations are false: C93_keeps_time_refuted, C93_all_rates_refuted."
  },
  {
   "property": "C94",
   "status": "proved",
   "theorems": [
    "C94_left_behind",
    "C94_filled",
    "C94_nothing",
    "C94_one_block",
    "C94_played_on",
    "C94_goes_on_refuted"
   ],
   "note": "Proved. C94_goes_on_refuted: two carried-on blocks are not one block of twice the size. Finite ratio is needed: an infinite ratio times 0 is NaN."
  },
  {
   "property": "C95",
   "status": "proved",
   "theorems": [
    "C95_stream",
    "C95_flush",
    "C95_extend",
    "C95_convert",
    "C95_blend",
    "C95_gain",
    "C95_strict_refuted",
    "C95_any_gain_refuted"
   ],
   "note": "Proved. C95_strict_refuted and C95_any_gain_refuted delimit it."
  },
  {
   "property": "C96",
   "status": "proved",
   "theorems": [
    "C96_sum",
    "C96_counted",
    "C96_mean",
    "C96_mean_refuted"
   ],
   "note": "Proved. C96_mean_refuted shows the need of the final silence."
  },
  {
   "property": "C97",
   "status": "proved",
   "theorems": [
    "C97_lower",
    "C97_lower_last",
    "C97_raise",
    "C97_raise_last",
    "C97_one_code_refuted"
   ],
   "note": "Proved. C97_one_code_refuted shows that the error terms cannot be dropped."
  },
  {
   "property": "C98",
   "status": "proved",
   "theorems": [
    "C98_sum",
    "C98_sum_part",
    "C98_spread",
    "C98_mean",
    "C98_mean_refuted"
   ],
   "note": "Proved. C98_mean_refuted: the 16-bit mean is not kept."
  },
  {
   "property": "C99",
   "status": "proved",
   "theorems": [
    "C99_add",
    "C99_sub",
    "C99_mul",
    "C99_neg",
    "C99_kind",
    "C99_convert",
    "C99_mix",
    "C99_lerp",
    "C99_frame_lerp",
    "C99_mixdown",
    "C99_mul_exact_refuted"
   ],
   "note": "Proved. C99_mul_exact_refuted: without an error term it is false for products."
  },
  {
   "property": "C100",
   "status": "proved",
   "theorems": [
    "C100_lower",
    "C100_raise",
    "C100_exact_refuted",
    "C100_first_refuted"
   ],
   "note": "From the second frame to the last full one; exact repetition, and repetition from the first frame on, refuted with witnesses."
  },
  {
   "property": "C101",
   "status": "proved",
   "theorems": [
    "C101_near",
    "C101_far",
    "C101_frames",
    "C101_any_refuted"
   ],
   "note": "Exact account for every distance; the same law for samples more than half the range apart is refuted with a witness."
  },
  {
   "property": "C102",
   "status": "proved",
   "theorems": [
    "C102_frame",
    "C102_channel",
    "C102_pause",
    "C102_formats_refuted"
   ],
   "note": "Exact; for integer formats other than the source's, silence is refuted with a witness."
  }
 ]
}