{
 "claims": [
  {
   "property": "C01",
   "status": "proved",
   "theorems": [
    "C01_generated_lookup",
    "C01_lookup"
   ],
   "note": "any sorted table with distinct names; the shipped table has 161 entries and is sorted"
  },
  {
   "property": "C02",
   "status": "proved",
   "theorems": [
    "C02_generated_dispatch",
    "C02_dispatch"
   ],
   "note": "any list of distinct names; the 55 streams of the sources"
  },
  {
   "property": "C03",
   "status": "proved",
   "theorems": [
    "C03_ring_history",
    "C03_ring_last_values",
    "C03_ring2_history"
   ],
   "note": "all capacities and operation sequences, any arithmetic"
  },
  {
   "property": "C04",
   "status": "partial",
   "theorems": [
    "C04_find_max",
    "C04_find_min",
    "C04_find_max2_refuted"
   ],
   "note": "proved for ringbuf<N> and the run-time size ringbuf; false for the size-2 specialisation, which ignores its period argument (witness)"
  },
  {
   "property": "C05",
   "status": "proved",
   "theorems": [
    "C05_buffer_get",
    "C05_buffer_sum"
   ],
   "note": "buffer sizes up to 268435452 (larger sizes overflow the int size computation in ti_buffer_new)"
  },
  {
   "property": "C06",
   "status": "partial",
   "theorems": [
    "C06_one_input",
    "C06_two_inputs",
    "C06_prices",
    "C06_bop_range",
    "C06_trunc_partial",
    "C06_trunc_refuted"
   ],
   "note": "all 34 functions for every arithmetic; trunc only where the (int) cast is defined, refuted for inputs of magnitude 2^31 and above"
  },
  {
   "property": "C07",
   "status": "proved",
   "theorems": [
    "C07_sma",
    "C07_sma_contract"
   ],
   "note": "exact arithmetic for the value, any arithmetic for count, safety and option check"
  },
  {
   "property": "C08",
   "status": "proved",
   "theorems": [
    "C08_sum",
    "C08_sum_contract"
   ],
   "note": ""
  },
  {
   "property": "C09",
   "status": "proved",
   "theorems": [
    "C09_wma",
    "C09_wma_contract"
   ],
   "note": "period*(period+1) must fit an int, above that the C expression overflows"
  },
  {
   "property": "C10",
   "status": "proved",
   "theorems": [
    "C10_ema",
    "C10_ema_range",
    "C10_wilders"
   ],
   "note": "ema recurrence for any arithmetic, range over the reals"
  },
  {
   "property": "C11",
   "status": "proved",
   "theorems": [
    "C11_var",
    "C11_var_nonneg",
    "C11_contracts"
   ],
   "note": "over the reals"
  },
  {
   "property": "C12",
   "status": "proved",
   "theorems": [
    "C12_regression"
   ],
   "note": "over the reals, periods 2..46340"
  },
  {
   "property": "C13",
   "status": "proved",
   "theorems": [
    "C13_max",
    "C13_min",
    "C13_binary64",
    "C13_nan_refuted"
   ],
   "note": "any totally ordered arithmetic, instantiated at binary64 without NaN; a NaN input breaks it (witness)"
  },
  {
   "property": "C14",
   "status": "partial",
   "theorems": [
    "C14_aroon",
    "C14_aroon_exact",
    "C14_range_binary64_refuted"
   ],
   "note": "age of the extremes for any ordered arithmetic; range [0,100] over the reals, refuted in binary64 where rounding of 100/period exceeds 100"
  },
  {
   "property": "C15",
   "status": "proved",
   "theorems": [
    "C15_willr",
    "C15_willr_range",
    "C15_stoch"
   ],
   "note": "over the reals"
  },
  {
   "property": "C16",
   "status": "proved",
   "theorems": [
    "C16_rsi",
    "C16_rsi_range",
    "C16_cmo",
    "C16_cmo_range",
    "C16_contracts"
   ],
   "note": "rsi for any arithmetic; ranges and cmo over the reals"
  },
  {
   "property": "C17",
   "status": "proved",
   "theorems": [
    "C17_cross"
   ],
   "note": "any arithmetic"
  },
  {
   "property": "C18",
   "status": "proved",
   "theorems": [
    "C18_obv",
    "C18_ad",
    "C18_wad",
    "C18_nvi_pvi",
    "C18_emv"
   ],
   "note": "sums over the reals; nvi, pvi, emv for any arithmetic"
  },
  {
   "property": "C19",
   "status": "proved",
   "theorems": [
    "C19_lookback",
    "C19_lag0"
   ],
   "note": "any arithmetic"
  },
  {
   "property": "C20",
   "status": "proved",
   "theorems": [
    "C20_tr",
    "C20_atr"
   ],
   "note": "over the reals; the values hold without low<=high, which only the signs need; natr >=0 also needs a positive close"
  },
  {
   "property": "C21",
   "status": "proved",
   "theorems": [
    "C21_bbands"
   ],
   "note": "over the reals"
  },
  {
   "property": "C22",
   "status": "proved",
   "theorems": [
    "C22_macd",
    "C22_macd_12_26",
    "C22_signal",
    "C22_apo_ppo"
   ],
   "note": "any arithmetic"
  },
  {
   "property": "C23",
   "status": "proved",
   "theorems": [
    "C23_batch",
    "C23_hma",
    "C23_streaming_contracts",
    "C23_extremes_binary64",
    "C23_arsi_refuted",
    "C23_rank_refuted"
   ],
   "note": "84 batch functions for every arithmetic with exact small integers; hma for binary64 and the reals (needs the square-root law); pc, ichi, smi, ce, mhlma for binary64 without NaN and negative zero; arsi over the reals only, in binary64 a NaN price is converted to int (witness); rmf, hf, hfsma, hfema for binary64 without NaN (hf*: without infinities), otherwise the order given to multiset or nth_element is not one (witnesses); mesastoch and these four are in C30_mesastoch_partial and C30_rank_partial"
  },
  {
   "property": "C24",
   "status": "partial",
   "theorems": [
    "C24_gap_filters",
    "C24_gf4_partial",
    "C24_gf4_refuted"
   ],
   "note": "gf1, gf2, gf3 for every size; gf4 from five bars up, below that it reads past the input (witness)"
  },
  {
   "property": "C25",
   "status": "partial",
   "theorems": [
    "C25_kst_partial",
    "C25_vidya_partial",
    "C25_kst_refuted",
    "C25_vidya_refuted"
   ],
   "note": "proved for sizes above the start offset (kst) / from the short period up (vidya); false below, with witnesses that read outside the input"
  },
  {
   "property": "C26",
   "status": "partial",
   "theorems": [
    "C26_zlema_refuted",
    "C26_dpo_refuted",
    "C26_hma_refuted",
    "C26_cvi_refuted",
    "C26_ultosc_refuted",
    "C26_pc_refuted",
    "C26_pc_nan_refuted",
    "C26_pc_partial",
    "C26_mesastoch_refuted",
    "C26_mesastoch_nan_refuted"
   ],
   "note": "false for the listed functions at period 1 (witnesses; mesastoch also at 2; pc and mesastoch also with a leading NaN); the contracts from period 2 up are part of C23_batch and C26_pc_partial, for mesastoch from 3 up of C30_mesastoch_partial"
  },
  {
   "property": "C27",
   "status": "partial",
   "theorems": [
    "C27_dwma_partial",
    "C27_dwma_refuted",
    "C27_frama_partial",
    "C27_frama_refuted",
    "C27_hurst_partial",
    "C27_hurst_refuted",
    "C27_rmi_partial",
    "C27_rmi_refuted",
    "C27_edcf_partial",
    "C27_edcf_refuted"
   ],
   "note": "dwma, frama, hurst, rmi, edcf: proved for integer periods in any arithmetic, false for a fractional one (a witness each)"
  },
  {
   "property": "C28",
   "status": "partial",
   "theorems": [
    "C28_cmi_partial",
    "C28_cmi_refuted",
    "C28_partial",
    "C28_ce_refuted",
    "C28_mhlma_refuted",
    "C28_smi_refuted",
    "C28_smi_fraction_refuted"
   ],
   "note": "false for all four: cmi, ce, mhlma write one value fewer with period 1, smi reads uninitialised averages (witnesses); size-start values from period 2 up"
  },
  {
   "property": "C29",
   "status": "partial",
   "theorems": [
    "C29_rvi_partial",
    "C29_rvi_refuted",
    "C29_pbands_partial",
    "C29_pbands_refuted",
    "C29_posc_partial",
    "C29_posc_refuted"
   ],
   "note": "rvi, pbands, posc: no overflow up to period 1023 (pbands, posc: integer periods), overflow at 1024 (witnesses)"
  },
  {
   "property": "C30",
   "status": "partial",
   "theorems": [
    "C30_stream_is_batch",
    "C30_stream_is_batch_binary64",
    "C30_vi_partial",
    "C30_vi_refuted",
    "C30_posc_fraction_refuted",
    "C30_extremes_binary64",
    "C30_zero_sign_refuted",
    "C30_mesastoch_partial",
    "C30_arsi_refuted",
    "C30_rank_partial",
    "C30_hfsma_refuted"
   ],
   "note": "the rows of stream_table, any arithmetic; pc, ichi, smi, ce, mhlma in binary64 for series without NaN and negative zero, which can differ in the sign of a zero (witness); mesastoch in binary64 when the filtered series has neither; the arsi stream fails for cycpart < 0.06 (witness); rmf, hf, hfsma, hfema in binary64 without NaN and infinities (rmf: without NaN); the hfsma stream fails when sma_period > 2k+1 (witness); every stream of the sources is covered here or by C31, C32"
  },
  {
   "property": "C31",
   "status": "proved",
   "theorems": [
    "C31_sma_stream",
    "C31_exact_streams",
    "C31_extremes_exact",
    "C31_binary64_refuted"
   ],
   "note": "sma, gf1, fi, hwma, ehma, pwma, lma, rmi, frama, emsd, vwap, atr, arsi, ce, mhlma over the reals; the sma stream is not bit-exact in binary64 (witness)"
  },
  {
   "property": "C32",
   "status": "partial",
   "theorems": [
    "C32_pvt_partial",
    "C32_pvt_refuted"
   ],
   "note": "true when no volume and no output is zero, any arithmetic; false otherwise (witness)"
  },
  {
   "property": "C33",
   "status": "partial",
   "theorems": [
    "C33_same_options",
    "C33_same_options_exact",
    "C33_extremes_binary64",
    "C30_mesastoch_partial",
    "C30_rank_partial",
    "C33_kc_refuted",
    "C33_frama_refuted"
   ],
   "note": "rows of the stream tables; false for kc with period in [0,1) and frama with average_period 1 (witnesses)"
  },
  {
   "property": "C34",
   "status": "partial",
   "theorems": [
    "C34_progress",
    "C34_progress_exact",
    "C34_extremes_binary64",
    "C30_mesastoch_partial",
    "C30_rank_partial"
   ],
   "note": "rows of the stream tables"
  },
  {
   "property": "C35",
   "status": "partial",
   "theorems": [
    "C35_causal",
    "C35_causal_exact",
    "C35_extremes_binary64",
    "C30_mesastoch_partial",
    "C30_rank_partial"
   ],
   "note": "rows of the stream tables"
  },
  {
   "property": "C36",
   "status": "partial",
   "theorems": [
    "C36_same_code",
    "C36_ahma",
    "C36_hwma",
    "C36_swma",
    "C36_atr",
    "C36_hf",
    "C36_max",
    "C36_er",
    "C36_t3",
    "C36_fi",
    "C36_idwma",
    "C36_swma_exact",
    "C36_pvt",
    "C36_evwma",
    "C36_vi",
    "C36_tsi",
    "C36_rmi",
    "C36_vwap",
    "C36_emsd",
    "C36_lma",
    "C36_dwma",
    "C36_shmma",
    "C36_copp",
    "C36_pfe",
    "C36_pbands",
    "C36_posc",
    "C36_pc",
    "C36_ichi",
    "C36_ce",
    "C36_mhlma",
    "C36_smi",
    "C36_cmi",
    "C36_hfsma",
    "C36_hfema",
    "C36_hurst",
    "C36_abands",
    "C36_kst",
    "C36_hd",
    "C36_mama",
    "C36_mesastoch",
    "C36_mama_options_refuted",
    "C36_mesastoch_refuted",
    "C36_zero_test_refuted",
    "C36_zero_test2_refuted",
    "C36_hurst_refuted",
    "C36_evwma_refuted",
    "C36_ehma_refuted",
    "C36_copp_refuted",
    "C36_pvt_refuted",
    "C36_short_refuted",
    "C36_fraction_refuted",
    "C36_ce_refuted"
   ],
   "note": "mgdyn, gf1-gf4, pwma, ahma, hwma, swma, atr, hf, max, min in any arithmetic; pc, ichi on binary64 values other than NaN and -0; er, t3, fi, idwma, swma, pvt, evwma, vi, tsi, rmi, vwap, emsd, lma, dwma, shmma, copp, pfe, pbands, posc, ce, mhlma, smi, cmi, hfsma, hfema, hurst, abands, kst over the reals, for integer options, long enough series and non-zero divisors; false otherwise and for ehma (witnesses); hd on all inputs; mama where its phase parts are not 0 or the period is small; mesastoch on windows that are not flat; arsi_ref is the same text as arsi and is one definition in the model"
  },
  {
   "property": "C37",
   "status": "partial",
   "theorems": [
    "C37_gf3_refuted",
    "C37_emsd_refuted"
   ],
   "note": "false for both named options: for all series gf3 does not depend on its period (over the reals) and emsd does not depend on ma_period (any arithmetic)"
  },
  {
   "property": "C38",
   "status": "partial",
   "theorems": [
    "C38_python_batch",
    "C38_python_streams",
    "C38_python_exact",
    "C38_short_series_refuted"
   ],
   "note": "every modelled indicator with a contract, positional and keyword calls; a series shorter than start raises ValueError instead (witness)"
  },
  {
   "property": "C39",
   "status": "partial",
   "theorems": [
    "C39_names",
    "C39_counts",
    "C39_batch",
    "C39_streams",
    "C39_streams_exact"
   ],
   "note": "the name lists of all 161 entries; the counts for the modelled functions"
  },
  {
   "property": "C40",
   "status": "proved",
   "theorems": [
    "C40_ranges"
   ],
   "note": "over the reals"
  },
  {
   "property": "C41",
   "status": "proved",
   "theorems": [
    "C41_pc",
    "C41_ichi"
   ],
   "note": "binary64 without NaN and negative zero"
  },
  {
   "property": "C42",
   "status": "proved",
   "theorems": [
    "C42_hf_exact",
    "C42_hf_binary64",
    "C42_rmf_exact",
    "C42_rmf_binary64",
    "C42_hfsma_exact",
    "C42_hfema_exact"
   ],
   "note": "hf and rmf over the reals and in binary64; hfsma and hfema over the reals"
  },
  {
   "property": "C43",
   "status": "proved",
   "theorems": [
    "C43_ema_meaning",
    "C43_extreme_meaning",
    "C43_er",
    "C43_vi",
    "C43_tsi",
    "C43_rmi",
    "C43_vwap",
    "C43_copp",
    "C43_pfe",
    "C43_dwma",
    "C43_lma",
    "C43_shmma",
    "C43_idwma",
    "C43_pwma",
    "C43_swma",
    "C43_t3",
    "C43_fi",
    "C43_pvt",
    "C43_evwma",
    "C43_emsd",
    "C43_pbands",
    "C43_posc",
    "C43_window_extreme_meaning",
    "C43_wilder_meaning",
    "C43_true_range_meaning",
    "C43_ce",
    "C43_mhlma",
    "C43_smi",
    "C43_cmi",
    "C43_hurst",
    "C43_abands",
    "C43_kst"
   ],
   "note": "over the reals, integer periods, non-zero divisors; the formulas are in SpecR.v"
  },
  {
   "property": "C44",
   "status": "partial",
   "theorems": [
    "C44_recurrences",
    "C44_dema",
    "C44_tema",
    "C44_zlema_partial",
    "C44_kama",
    "C44_vidya_partial",
    "C44_trima",
    "C44_hma_partial",
    "C44_rmta_partial",
    "C44_rmta_refuted",
    "C44_decay",
    "C44_edecay",
    "C44_kama_share_range",
    "C44_vidya_divisor",
    "C44_constant"
   ],
   "note": "over the reals, integer periods; zlema below 3, hma at 1, vidya on long-1 bars are refuted in C25 and C26, rmta at 1 here; hma above 46340 and trima above 92679 overflow"
  },
  {
   "property": "C45",
   "status": "proved",
   "theorems": [
    "C45_movement_meaning",
    "C45_sum_meaning",
    "C45_mean_meaning",
    "C45_dm",
    "C45_di",
    "C45_dx",
    "C45_adx",
    "C45_adxr",
    "C45_dx_range",
    "C45_adx_range",
    "C45_di_range"
   ],
   "note": "over the reals, integer periods; di on bars whose close lies between low and high"
  },
  {
   "property": "C46",
   "status": "partial",
   "theorems": [
    "C46_average_meaning",
    "C46_deviation_meaning",
    "C46_adosc",
    "C46_ao",
    "C46_mass",
    "C46_cvi",
    "C46_kvo",
    "C46_trix_partial",
    "C46_cmf",
    "C46_cci",
    "C46_mfi",
    "C46_vosc",
    "C46_volatility",
    "C46_divisors",
    "C46_mfi_range",
    "C46_cmf_range",
    "C46_trix_period1",
    "C46_trix_refuted"
   ],
   "note": "over the reals, integer periods; trix with period 1 starts at 100 instead (witness); mass and cvi on bars with low below high"
  },
  {
   "property": "C47",
   "status": "partial",
   "theorems": [
    "C47_extremes",
    "C47_recurrences",
    "C47_psar",
    "C47_ultosc_partial",
    "C47_stochrsi",
    "C47_vhf",
    "C47_fisher",
    "C47_kc",
    "C47_msw",
    "C47_psar_side",
    "C47_psar_ratchet",
    "C47_ultosc_range",
    "C47_stochrsi_range",
    "C47_vhf_range",
    "C47_fisher_domain",
    "C47_msw_range",
    "C47_kc_order"
   ],
   "note": "over the reals; ultosc with equal second and third period is refuted in C26; msw with the seven digit pi of the code"
  },
  {
   "property": "C48",
   "status": "partial",
   "theorems": [
    "C48_solutions",
    "C48_ssmooth",
    "C48_roof",
    "C48_lf",
    "C48_mgdyn",
    "C48_rema",
    "C48_bf2",
    "C48_bf3",
    "C48_gf",
    "C48_follow",
    "C48_settle",
    "C48_tables",
    "C48_mgdyn_rising",
    "C48_gf4_unbounded",
    "C48_gf4_refuted",
    "C48_gf4_sign_refuted",
    "C48_lf_refuted",
    "C48_mgdyn_refuted"
   ],
   "note": "over the reals; the gf4 table A4 has the wrong sign and gf4 is unstable from period 32 on (refuted); lf accepts damping 1 and then ignores the price (refuted); mgdyn is shown to follow its equation and to stay below a price above it, not to settle, and it can fall below every price (refuted)"
  },
  {
   "property": "C49",
   "status": "partial",
   "theorems": [
    "C49_solutions",
    "C49_hwma",
    "C49_ahma",
    "C49_ehma",
    "C49_edcf",
    "C49_rvi",
    "C49_frama",
    "C49_hwma_level",
    "C49_hwma_delay",
    "C49_follow",
    "C49_edcf_range",
    "C49_edcf_level_refuted",
    "C49_rvi_range",
    "C49_rvi_below",
    "C49_frama_range",
    "C49_frama_flat"
   ],
   "note": "over the reals; edcf writes 0 on a constant price, and always with period 1 (refuted); rvi writes 50 as long as the price was never above its line, so it is not symmetric"
  },
  {
   "property": "C50",
   "status": "partial",
   "theorems": [
    "C50_solutions",
    "C50_hd",
    "C50_mama",
    "C50_arsi",
    "C50_period_range",
    "C50_first_period",
    "C50_mama_angle_refuted",
    "C50_mama_slow_unused",
    "C50_mama_first",
    "C50_mama_range",
    "C50_mama_follow",
    "C50_arsi_range"
   ],
   "note": "over the reals; mama divides 360 by an angle in radians, so its period depends on the sign of the angle only and a slow limit up to fast/pi is never used (C50_mama_angle_refuted, C50_mama_slow_unused); mama starts from 0 instead of the price (C50_mama_first)"
  },
  {
   "property": "C51",
   "status": "partial",
   "theorems": [
    "C51_solutions",
    "C51_mesastoch",
    "C51_position",
    "C51_line",
    "C51_follow",
    "C51_filters",
    "C51_one_bar_cycle_refuted"
   ],
   "note": "over the reals with infinities; for max_cycle_considered 1, which the option check accepts, the high-pass filter is unstable (C51_one_bar_cycle_refuted); the smoother uses 3.141459 for pi"
  },
  {
   "property": "C52",
   "status": "proved",
   "theorems": [
    "C52_rsi",
    "C52_stochrsi",
    "C52_rmi",
    "C52_dx",
    "C52_dm",
    "C52_adx_nonneg",
    "C52_willr",
    "C52_bop",
    "C52_tr",
    "C52_atr",
    "C52_ema",
    "C52_medprice",
    "C52_ema_one_refuted",
    "C52_sma_refuted",
    "C52_typprice_refuted",
    "C52_var_refuted",
    "C52_cmo_refuted",
    "C52_er_infinite_refuted",
    "C52_adx_refuted",
    "C52_stoch_refuted"
   ],
   "note": "binary64 for any math library; NaN is allowed where stated, it comes from overflow or non-finite inputs; the _refuted theorems are the ranges the statement says rounding breaks"
  },
  {
   "property": "C53",
   "status": "proved",
   "theorems": [
    "C53_rsi",
    "C53_stochrsi",
    "C53_rmi",
    "C53_dx",
    "C53_adx",
    "C53_willr",
    "C53_bop",
    "C53_aroon",
    "C53_avgprice",
    "C53_wcprice",
    "C53_nan_refuted"
   ],
   "note": "binary64 for any math library; C53_nan_refuted shows the limit on the size of the prices is needed: rsi of finite doubles near the largest is NaN"
  },
  {
   "property": "C54",
   "status": "proved",
   "theorems": [
    "C54_never_forgotten",
    "C54_adaptive",
    "C54_vidya_constant",
    "C54_sma_spike",
    "C54_bbands_refuted",
    "C54_hidden_refuted"
   ],
   "note": "binary64 for any math library; C54_bbands_refuted and C54_hidden_refuted are concrete: bbands of equal prices NaN, a NaN price which rsi and cmo do not show"
  },
  {
   "property": "C55",
   "status": "proved",
   "theorems": [
    "C55_names",
    "C55_clean",
    "C55_streaming",
    "C55_streaming_exact",
    "C55_default_last_input",
    "C55_default_one_input",
    "C55_default_bop",
    "C55_default_medprice",
    "C55_default_sma",
    "C55_default_ema",
    "C55_default_invalid",
    "C55_streaming_throws",
    "C55_streaming_warmup_refuted",
    "C55_default_refuted"
   ],
   "note": "C55_streaming: any arithmetic, every row of stream_table without a condition on the series; C55_streaming_exact, bop, medprice and sma: over the reals; the _refuted theorems are the defects the statement names, on concrete doubles"
  },
  {
   "property": "C56",
   "status": "proved",
   "theorems": [
    "C56_compare",
    "C56_arrays",
    "C56_reals",
    "C56_sign_blind",
    "C56_negated",
    "C56_near_zero",
    "C56_self_64",
    "C56_sign_blind_64",
    "C56_negated_64",
    "C56_nonfinite_64",
    "C56_transitive_refuted"
   ],
   "note": "C56_compare and C56_arrays: any arithmetic; reals, sign_blind and near_zero: over the reals; the _64 theorems: binary64"
  }
 ]
}