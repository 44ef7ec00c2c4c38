(** The list of indicators, indicators.yaml, and the index every stream constructor stores.
    Generated from the text of the repository. *)
From Coq Require Import String List.
Import ListNotations.
Open Scope string_scope.

Inductive itype := Overlay | Indicator | Math | Simple | Comparative.
(** One entry of indicators.yaml (format: indicators.yaml:8-13): name, full name, type, names of the
    inputs, options and outputs, features [ref] and [stream].  The last field of an entry (the
    literature reference) is not used by codegen.py and not kept. *)
Record ind := Ind { i_name : string; i_full : string; i_type : itype;
  i_inputs : list string; i_options : list string; i_outputs : list string; i_ref : bool; i_stream : bool }.

(** indicators.yaml; the number before an entry is its line *)
Definition indicators : list ind :=
  [
    (* 22 *) Ind "dema" "Double Exponential Moving Average" Overlay ["series"] ["period"] ["dema"] false false;
    (* 23 *) Ind "ema" "Exponential Moving Average" Overlay ["series"] ["period"] ["ema"] false false;
    (* 24 *) Ind "hfsma" "Hampel Filter on Simple Moving Average" Overlay ["series"] ["sma_period"; "k"; "threshold"] ["hfsma"] true true;
    (* 25 *) Ind "hma" "Hull Moving Average" Overlay ["series"] ["period"] ["hma"] false false;
    (* 26 *) Ind "hfema" "Hampel Filter on Exponential Moving Average" Overlay ["series"] ["ema_period"; "k"; "threshold"] ["hfema"] true true;
    (* 27 *) Ind "sma" "Simple Moving Average" Overlay ["series"] ["period"] ["sma"] false true;
    (* 28 *) Ind "lf" "Laguerre Filter" Overlay ["series"] ["gamma"] ["lf"] false true;
    (* 29 *) Ind "rmf" "Recursive Median Filter" Overlay ["series"] ["critical_period"; "median_period"] ["rmf"] false true;
    (* 30 *) Ind "mama" "MESA Adaptive Moving Average" Overlay ["series"] ["fastlimit"; "slowlimit"] ["mama"; "fama"] true true;
    (* 31 *) Ind "rema" "Regularized Exponential Moving Average" Overlay ["series"] ["period"; "lambda"] ["rema"] false true;
    (* 32 *) Ind "tema" "Triple Exponential Moving Average" Overlay ["series"] ["period"] ["tema"] false false;
    (* 33 *) Ind "trima" "Triangular Moving Average" Overlay ["series"] ["period"] ["trima"] false false;
    (* 34 *) Ind "vidya" "Variable Index Dynamic Average" Overlay ["series"] ["short period"; "long period"; "alpha"] ["vidya"] false false;
    (* 35 *) Ind "vwma" "Volume Weighted Moving Average" Overlay ["close"; "volume"] ["period"] ["vwma"] false false;
    (* 36 *) Ind "vwap" "Volume Weighted Average Price" Overlay ["high"; "low"; "close"; "volume"] ["period"] ["vwap"] true true;
    (* 37 *) Ind "wilders" "Wilders Smoothing" Overlay ["series"] ["period"] ["wilders"] false false;
    (* 38 *) Ind "wma" "Weighted Moving Average" Overlay ["series"] ["period"] ["wma"] false false;
    (* 39 *) Ind "zlema" "Zero-Lag Exponential Moving Average" Overlay ["series"] ["period"] ["zlema"] false false;
    (* 40 *) Ind "rmta" "Recursive Moving Trend Average" Overlay ["series"] ["period"; "beta"] ["rmta"] false false;
    (* 41 *) Ind "gf1" "Gaussian Filter - 1 Pole" Overlay ["series"] ["period"] ["gf1"] true true;
    (* 42 *) Ind "gf2" "Gaussian Filter - 2 Poles" Overlay ["series"] ["period"] ["gf2"] true true;
    (* 43 *) Ind "gf3" "Gaussian Filter - 3 Poles" Overlay ["series"] ["period"] ["gf3"] true true;
    (* 44 *) Ind "gf4" "Gaussian Filter - 4 Poles" Overlay ["series"] ["period"] ["gf4"] true true;
    (* 45 *) Ind "ehma" "Exponential Hull Moving Average" Overlay ["series"] ["period"] ["ehma"] true true;
    (* 46 *) Ind "evwma" "Elastic Volume Weighted Moving Average" Overlay ["close"; "volume"] ["period"; "gamma"] ["evwma"] true true;
    (* 47 *) Ind "lma" "Leo Moving Average" Overlay ["close"] ["period"] ["lma"] true true;
    (* 48 *) Ind "pwma" "Power Weighted Moving Average" Overlay ["series"] ["period"; "power"] ["pwma"] true true;
    (* 49 *) Ind "swma" "Sine Weighted Moving Average" Overlay ["series"] ["period"] ["swma"] true true;
    (* 50 *) Ind "dwma" "Double Weighted Moving Average" Overlay ["series"] ["period"] ["dwma"] true true;
    (* 51 *) Ind "shmma" "Sharp Modified Moving Average" Overlay ["series"] ["period"] ["shmma"] true true;
    (* 52 *) Ind "ahma" "Ahrens Moving Average" Overlay ["series"] ["period"] ["ahma"] true true;
    (* 53 *) Ind "t3" "T3 Moving Average" Overlay ["series"] ["period"; "v"] ["t3"] true true;
    (* 54 *) Ind "mhlma" "Middle-High-Low Moving Average" Overlay ["series"] ["period"; "ma_period"] ["mhlsma"; "mhlema"] true true;
    (* 55 *) Ind "cmi" "Choppy Market Indicator" Indicator ["high"; "low"; "close"] ["period"] ["cmi"] true true;
    (* 56 *) Ind "idwma" "Inverse Distance Weighted Moving Average" Overlay ["series"] ["period"; "exponent"] ["idwma"] true true;
    (* 57 *) Ind "emsd" "Exponential Moving Standard Deviation" Overlay ["series"] ["period"; "ma_period"] ["emsd"] true true;
    (* 58 *) Ind "hwma" "Henderson asymmetric filter" Overlay ["series"] ["period"] ["hwma"] true true;
    (* 59 *) Ind "hd" "Homodyne Discriminator" Indicator ["series"] [] ["hd"] true true;
    (* 60 *) Ind "mgdyn" "McGinley Dynamic" Overlay ["series"] ["N"] ["mgdyn"] true true;
    (* 63 *) Ind "linreg" "Linear Regression" Overlay ["series"] ["period"] ["linreg"] false false;
    (* 64 *) Ind "linregintercept" "Linear Regression Intercept" Indicator ["series"] ["period"] ["linregintercept"] false false;
    (* 65 *) Ind "linregslope" "Linear Regression Slope" Indicator ["series"] ["period"] ["linregslope"] false false;
    (* 66 *) Ind "tsf" "Time Series Forecast" Overlay ["series"] ["period"] ["tsf"] false false;
    (* 67 *) Ind "fosc" "Forecast Oscillator" Indicator ["series"] ["period"] ["fosc"] false false;
    (* 70 *) Ind "bbands" "Bollinger Bands" Overlay ["series"] ["period"; "stddev"] ["bbands_lower"; "bbands_middle"; "bbands_upper"] false false;
    (* 71 *) Ind "bf2" "Butterworth Filter - 2 Poles" Overlay ["series"] ["period"] ["bf2"] false true;
    (* 72 *) Ind "bf3" "Butterworth Filter - 3 Poles" Overlay ["series"] ["period"] ["bf3"] false true;
    (* 73 *) Ind "kc" "Keltner Channel" Overlay ["high"; "low"; "close"] ["period"; "multiple"] ["kc_lower"; "kc_middle"; "kc_upper"] false true;
    (* 74 *) Ind "kama" "Kaufman Adaptive Moving Average" Overlay ["series"] ["period"] ["kama"] false false;
    (* 75 *) Ind "psar" "Parabolic SAR" Overlay ["high"; "low"] ["acceleration factor step"; "acceleration factor maximum"] ["psar"] false false;
    (* 76 *) Ind "pc" "Price Channel" Overlay ["high"; "low"] ["period"] ["pc_low"; "pc_high"] false true;
    (* 77 *) Ind "pbands" "Projection Bands" Overlay ["high"; "low"; "close"] ["period"] ["pbands_lower"; "pbands_upper"] true true;
    (* 78 *) Ind "edcf" "Ehlers Distance Coefficient Filter" Overlay ["series"] ["length"] ["edcf"] false true;
    (* 79 *) Ind "frama" "Fractal Adaptive Moving Average" Overlay ["high"; "low"] ["period"; "average_period"] ["frama"] false true;
    (* 80 *) Ind "roof" "The Roofing Filter" Overlay ["series"] [] ["roof"] false true;
    (* 81 *) Ind "ssmooth" "SuperSmoother Filter" Overlay ["series"] [] ["ssmooth"] false true;
    (* 82 *) Ind "hf" "Hampel Filter" Overlay ["series"] ["period"; "threshold"] ["hf"] true true;
    (* 85 *) Ind "ad" "Accumulation/Distribution Line" Indicator ["high"; "low"; "close"; "volume"] [] ["ad"] false false;
    (* 86 *) Ind "adosc" "Accumulation/Distribution Oscillator" Indicator ["high"; "low"; "close"; "volume"] ["short period"; "long period"] ["adosc"] false false;
    (* 87 *) Ind "abands" "Acceleration Bands" Indicator ["high"; "low"; "close"] ["period"] ["abands_lower"; "abands_upper"; "abands_middle"] true false;
    (* 88 *) Ind "apo" "Absolute Price Oscillator" Indicator ["series"] ["short period"; "long period"] ["apo"] false false;
    (* 89 *) Ind "aroon" "Aroon" Indicator ["high"; "low"] ["period"] ["aroon_down"; "aroon_up"] false false;
    (* 90 *) Ind "aroonosc" "Aroon Oscillator" Indicator ["high"; "low"] ["period"] ["aroonosc"] false false;
    (* 91 *) Ind "ao" "Awesome Oscillator" Indicator ["high"; "low"] [] ["ao"] false false;
    (* 92 *) Ind "bop" "Balance of Power" Indicator ["open"; "high"; "low"; "close"] [] ["bop"] false false;
    (* 93 *) Ind "cmf" "Chaikin Money Flow" Indicator ["high"; "low"; "close"; "volume"] ["period"] ["cmf"] false false;
    (* 94 *) Ind "mesastoch" "MESA Stochastic (by John F. Ehlers)" Indicator ["series"] ["period"; "max_cycle_considered"] ["mesastoch"] true true;
    (* 95 *) Ind "cmo" "Chande Momentum Oscillator" Indicator ["series"] ["period"] ["cmo"] false false;
    (* 96 *) Ind "cci" "Commodity Channel Index" Indicator ["high"; "low"; "close"] ["period"] ["cci"] false false;
    (* 97 *) Ind "copp" "Coppock Curve" Indicator ["series"] ["roc_shorter_period"; "roc_longer_period"; "wma_period"] ["copp"] true true;
    (* 98 *) Ind "dpo" "Detrended Price Oscillator" Indicator ["series"] ["period"] ["dpo"] false false;
    (* 99 *) Ind "emv" "Ease of Movement" Indicator ["high"; "low"; "volume"] [] ["emv"] false false;
    (* 100 *) Ind "fisher" "Fisher Transform" Indicator ["high"; "low"] ["period"] ["fisher"; "fisher_signal"] false false;
    (* 101 *) Ind "fi" "Force Index" Indicator ["close"; "volume"] ["period"] ["fi"] true true;
    (* 102 *) Ind "kvo" "Klinger Volume Oscillator" Indicator ["high"; "low"; "close"; "volume"] ["short period"; "long period"] ["kvo"] false false;
    (* 103 *) Ind "kst" "Know Sure Thing" Indicator ["series"] ["roc1"; "roc2"; "roc3"; "roc4"; "ma1"; "ma2"; "ma3"; "ma4"] ["kst"; "kst_signal"] true false;
    (* 104 *) Ind "marketfi" "Market Facilitation Index" Indicator ["high"; "low"; "volume"] [] ["marketfi"] false false;
    (* 105 *) Ind "mass" "Mass Index" Indicator ["high"; "low"] ["period"] ["mass"] false false;
    (* 106 *) Ind "mfi" "Money Flow Index" Indicator ["high"; "low"; "close"; "volume"] ["period"] ["mfi"] false false;
    (* 107 *) Ind "macd" "Moving Average Convergence/Divergence" Indicator ["series"] ["short period"; "long period"; "signal period"] ["macd"; "macd_signal"; "macd_histogram"] false false;
    (* 108 *) Ind "nvi" "Negative Volume Index" Indicator ["close"; "volume"] [] ["nvi"] false false;
    (* 109 *) Ind "obv" "On Balance Volume" Indicator ["close"; "volume"] [] ["obv"] false false;
    (* 110 *) Ind "ppo" "Percentage Price Oscillator" Indicator ["series"] ["short period"; "long period"] ["ppo"] false false;
    (* 111 *) Ind "pfe" "Polarized Fractal Efficiency" Indicator ["series"] ["period"; "ema_period"] ["pfe"] true true;
    (* 112 *) Ind "pvi" "Positive Volume Index" Indicator ["close"; "volume"] [] ["pvi"] false false;
    (* 113 *) Ind "posc" "Projection Oscillator" Indicator ["high"; "low"; "close"] ["period"; "ema_period"] ["posc"] true true;
    (* 114 *) Ind "qstick" "Qstick" Indicator ["open"; "close"] ["period"] ["qstick"] false false;
    (* 115 *) Ind "rsi" "Relative Strength Index" Indicator ["series"] ["period"] ["rsi"] false false;
    (* 116 *) Ind "tsi" "True Strength Index" Indicator ["series"] ["y_period"; "z_period"] ["tsi"] true true;
    (* 117 *) Ind "rmi" "Relative Momentum Index" Indicator ["series"] ["period"; "lookback_period"] ["rmi"] true true;
    (* 118 *) Ind "rvi" "Relative Volatility Index" Indicator ["series"] ["ema_period"; "stddev_period"] ["rvi"] false true;
    (* 119 *) Ind "smi" "Stochastic Momentum Index" Indicator ["high"; "low"; "close"] ["q_period"; "r_period"; "s_period"] ["smi"] true true;
    (* 120 *) Ind "stoch" "Stochastic Oscillator" Indicator ["high"; "low"; "close"] ["k period"; "k slowing period"; "d period"] ["stoch_k"; "stoch_d"] false false;
    (* 121 *) Ind "stochrsi" "Stochastic RSI" Indicator ["series"] ["period"] ["stochrsi"] false false;
    (* 122 *) Ind "trix" "Trix" Indicator ["series"] ["period"] ["trix"] false false;
    (* 123 *) Ind "wad" "Williams Accumulation/Distribution" Indicator ["high"; "low"; "close"] [] ["wad"] false false;
    (* 124 *) Ind "willr" "Williams %R" Indicator ["high"; "low"; "close"] ["period"] ["willr"] false false;
    (* 125 *) Ind "ultosc" "Ultimate Oscillator" Indicator ["high"; "low"; "close"] ["short period"; "medium period"; "long period"] ["ultosc"] false false;
    (* 126 *) Ind "vhf" "Vertical Horizontal Filter" Indicator ["series"] ["period"] ["vhf"] false false;
    (* 127 *) Ind "vosc" "Volume Oscillator" Indicator ["volume"] ["short period"; "long period"] ["vosc"] false false;
    (* 128 *) Ind "er" "Efficiency Ratio" Indicator ["series"] ["period"] ["er"] true true;
    (* 129 *) Ind "pvt" "Price Volume Trend" Indicator ["close"; "volume"] [] ["pvt"] true true;
    (* 130 *) Ind "hurst" "Hurst Exponent Indicator" Indicator ["series"] ["period"] ["hurst"; "fractal_dim"] true true;
    (* 131 *) Ind "arsi" "Adaptive Relative Strength Index" Indicator ["series"] ["cycpart"] ["arsi"] true true;
    (* 134 *) Ind "dm" "Directional Movement" Indicator ["high"; "low"] ["period"] ["plus_dm"; "minus_dm"] false false;
    (* 135 *) Ind "dx" "Directional Movement Index" Indicator ["high"; "low"] ["period"] ["dx"] false false;
    (* 136 *) Ind "di" "Directional Indicator" Indicator ["high"; "low"; "close"] ["period"] ["plus_di"; "minus_di"] false false;
    (* 137 *) Ind "adx" "Average Directional Movement Index" Indicator ["high"; "low"] ["period"] ["adx"] false false;
    (* 138 *) Ind "adxr" "Average Directional Movement Rating" Indicator ["high"; "low"] ["period"] ["adxr"] false false;
    (* 141 *) Ind "msw" "Mesa Sine Wave" Indicator ["series"] ["period"] ["msw_sine"; "msw_lead"] false false;
    (* 144 *) Ind "mom" "Momentum" Indicator ["series"] ["period"] ["mom"] false false;
    (* 145 *) Ind "roc" "Rate of Change" Indicator ["series"] ["period"] ["roc"] false false;
    (* 146 *) Ind "rocr" "Rate of Change Ratio" Indicator ["series"] ["period"] ["rocr"] false false;
    (* 149 *) Ind "lag" "Lag" Math ["series"] ["period"] ["lag"] false false;
    (* 150 *) Ind "max" "Maximum In Period" Math ["series"] ["period"] ["max"] true false;
    (* 151 *) Ind "min" "Minimum In Period" Math ["series"] ["period"] ["min"] true false;
    (* 152 *) Ind "sum" "Sum Over Period" Math ["series"] ["period"] ["sum"] false false;
    (* 153 *) Ind "stddev" "Standard Deviation Over Period" Math ["series"] ["period"] ["stddev"] false false;
    (* 154 *) Ind "stderr" "Standard Error Over Period" Math ["series"] ["period"] ["stderr"] false false;
    (* 155 *) Ind "md" "Mean Deviation Over Period" Math ["series"] ["period"] ["md"] false false;
    (* 156 *) Ind "var" "Variance Over Period" Math ["series"] ["period"] ["var"] false false;
    (* 159 *) Ind "avgprice" "Average Price" Overlay ["open"; "high"; "low"; "close"] [] ["avgprice"] false false;
    (* 160 *) Ind "medprice" "Median Price" Overlay ["high"; "low"] [] ["medprice"] false false;
    (* 161 *) Ind "typprice" "Typical Price" Overlay ["high"; "low"; "close"] [] ["typprice"] false false;
    (* 162 *) Ind "wcprice" "Weighted Close Price" Overlay ["high"; "low"; "close"] [] ["wcprice"] false false;
    (* 163 *) Ind "atr" "Average True Range" Indicator ["high"; "low"; "close"] ["period"] ["atr"] true true;
    (* 164 *) Ind "ce" "Chandelier Exit" Indicator ["high"; "low"; "close"] ["period"; "coef"] ["ce_high"; "ce_low"] true true;
    (* 165 *) Ind "natr" "Normalized Average True Range" Indicator ["high"; "low"; "close"] ["period"] ["natr"] false false;
    (* 166 *) Ind "tr" "True Range" Indicator ["high"; "low"; "close"] [] ["tr"] false false;
    (* 167 *) Ind "ichi" "Ichimoku" Indicator ["high"; "low"] ["period9"; "period26"; "period52"] ["ichi_tenkan_sen"; "ichi_kijun_sen"; "ichi_senkou_span_A"; "ichi_senkou_span_B"] true true;
    (* 170 *) Ind "volatility" "Annualized Historical Volatility" Indicator ["series"] ["period"] ["volatility"] false false;
    (* 171 *) Ind "cvi" "Chaikins Volatility" Indicator ["high"; "low"] ["period"] ["cvi"] false false;
    (* 174 *) Ind "crossany" "Crossany" Math ["series"; "series"] [] ["crossany"] false false;
    (* 175 *) Ind "crossover" "Crossover" Math ["series"; "series"] [] ["crossover"] false false;
    (* 176 *) Ind "decay" "Linear Decay" Math ["series"] ["period"] ["decay"] false false;
    (* 177 *) Ind "edecay" "Exponential Decay" Math ["series"] ["period"] ["edecay"] false false;
    (* 180 *) Ind "add" "Vector Addition" Simple ["series"; "series"] [] ["add"] false false;
    (* 181 *) Ind "sub" "Vector Subtraction" Simple ["series"; "series"] [] ["sub"] false false;
    (* 182 *) Ind "mul" "Vector Multiplication" Simple ["series"; "series"] [] ["mul"] false false;
    (* 183 *) Ind "div" "Vector Division" Simple ["series"; "series"] [] ["div"] false false;
    (* 184 *) Ind "abs" "Vector Absolute Value" Simple ["series"] [] ["abs"] false false;
    (* 185 *) Ind "acos" "Vector Arccosine" Simple ["series"] [] ["acos"] false false;
    (* 186 *) Ind "asin" "Vector Arcsine" Simple ["series"] [] ["asin"] false false;
    (* 189 *) Ind "atan" "Vector Arctangent" Simple ["series"] [] ["atan"] false false;
    (* 190 *) Ind "ceil" "Vector Ceiling" Simple ["series"] [] ["ceil"] false false;
    (* 191 *) Ind "cos" "Vector Cosine" Simple ["series"] [] ["cos"] false false;
    (* 192 *) Ind "cosh" "Vector Hyperbolic Cosine" Simple ["series"] [] ["cosh"] false false;
    (* 193 *) Ind "exp" "Vector Exponential" Simple ["series"] [] ["exp"] false false;
    (* 194 *) Ind "floor" "Vector Floor" Simple ["series"] [] ["floor"] false false;
    (* 195 *) Ind "ln" "Vector Natural Log" Simple ["series"] [] ["ln"] false false;
    (* 196 *) Ind "log10" "Vector Base-10 Log" Simple ["series"] [] ["log10"] false false;
    (* 197 *) Ind "round" "Vector Round" Simple ["series"] [] ["round"] false false;
    (* 198 *) Ind "sin" "Vector Sine" Simple ["series"] [] ["sin"] false false;
    (* 199 *) Ind "sinh" "Vector Hyperbolic Sine" Simple ["series"] [] ["sinh"] false false;
    (* 200 *) Ind "sqrt" "Vector Square Root" Simple ["series"] [] ["sqrt"] false false;
    (* 201 *) Ind "tan" "Vector Tangent" Simple ["series"] [] ["tan"] false false;
    (* 202 *) Ind "tanh" "Vector Hyperbolic Tangent" Simple ["series"] [] ["tanh"] false false;
    (* 203 *) Ind "todeg" "Vector Degree Conversion" Simple ["series"] [] ["degrees"] false false;
    (* 204 *) Ind "torad" "Vector Radian Conversion" Simple ["series"] [] ["radians"] false false;
    (* 205 *) Ind "trunc" "Vector Truncate" Simple ["series"] [] ["trunc"] false false;
    (* 209 *) Ind "vi" "Vortex Indicator" Indicator ["high"; "low"; "close"] ["period"] ["vi_p"; "vi_m"] true true ].

(** For every function ti_X_stream_new: X and the constant it assigns to [index] *)
Definition stream_index : list (string * string) :=
  [
    (* ahma.cc:78 *) ("ahma", "TI_INDICATOR_AHMA_INDEX");
    (* arsi.cc:173 *) ("arsi", "TI_INDICATOR_ARSI_INDEX");
    (* atr.cc:111 *) ("atr", "TI_INDICATOR_ATR_INDEX");
    (* bf2.cc:100 *) ("bf2", "TI_INDICATOR_BF2_INDEX");
    (* bf3.cc:110 *) ("bf3", "TI_INDICATOR_BF3_INDEX");
    (* ce.cc:184 *) ("ce", "TI_INDICATOR_CE_INDEX");
    (* cmi.cc:147 *) ("cmi", "TI_INDICATOR_CMI_INDEX");
    (* copp.cc:154 *) ("copp", "TI_INDICATOR_COPP_INDEX");
    (* dwma.cc:125 *) ("dwma", "TI_INDICATOR_DWMA_INDEX");
    (* edcf.cc:92 *) ("edcf", "TI_INDICATOR_EDCF_INDEX");
    (* ehma.cc:116 *) ("ehma", "TI_INDICATOR_EHMA_INDEX");
    (* emsd.cc:140 *) ("emsd", "TI_INDICATOR_EMSD_INDEX");
    (* er.cc:91 *) ("er", "TI_INDICATOR_ER_INDEX");
    (* evwma.cc:113 *) ("evwma", "TI_INDICATOR_EVWMA_INDEX");
    (* fi.cc:70 *) ("fi", "TI_INDICATOR_FI_INDEX");
    (* frama.cc:150 *) ("frama", "TI_INDICATOR_FRAMA_INDEX");
    (* gf1.cc:98 *) ("gf1", "TI_INDICATOR_GF1_INDEX");
    (* gf2.cc:111 *) ("gf2", "TI_INDICATOR_GF2_INDEX");
    (* gf3.cc:113 *) ("gf3", "TI_INDICATOR_GF3_INDEX");
    (* gf4.cc:129 *) ("gf4", "TI_INDICATOR_GF4_INDEX");
    (* hd.cc:168 *) ("hd", "TI_INDICATOR_HD_INDEX");
    (* hf.cc:129 *) ("hf", "TI_INDICATOR_HF_INDEX");
    (* hfema.cc:151 *) ("hfema", "TI_INDICATOR_HFEMA_INDEX");
    (* hfsma.cc:148 *) ("hfsma", "TI_INDICATOR_HFSMA_INDEX");
    (* hurst.cc:145 *) ("hurst", "TI_INDICATOR_HURST_INDEX");
    (* hwma.cc:97 *) ("hwma", "TI_INDICATOR_HWMA_INDEX");
    (* ichi.cc:294 *) ("ichi", "TI_INDICATOR_ICHI_INDEX");
    (* idwma.cc:105 *) ("idwma", "TI_INDICATOR_IDWMA_INDEX");
    (* kc.cc:100 *) ("kc", "TI_INDICATOR_KC_INDEX");
    (* lf.cc:76 *) ("lf", "TI_INDICATOR_LF_INDEX");
    (* lma.cc:107 *) ("lma", "TI_INDICATOR_LMA_INDEX");
    (* mama.cc:234 *) ("mama", "TI_INDICATOR_MAMA_INDEX");
    (* mesastoch.cc:214 *) ("mesastoch", "TI_INDICATOR_MESASTOCH_INDEX");
    (* mgdyn.cc:82 *) ("mgdyn", "TI_INDICATOR_MGDYN_INDEX");
    (* mhlma.cc:190 *) ("mhlma", "TI_INDICATOR_MHLMA_INDEX");
    (* pbands.cc:139 *) ("pbands", "TI_INDICATOR_PBANDS_INDEX");
    (* pc.cc:116 *) ("pc", "TI_INDICATOR_PC_INDEX");
    (* pfe.cc:134 *) ("pfe", "TI_INDICATOR_PFE_INDEX");
    (* posc.cc:162 *) ("posc", "TI_INDICATOR_POSC_INDEX");
    (* pvt.cc:67 *) ("pvt", "TI_INDICATOR_PVT_INDEX");
    (* pwma.cc:97 *) ("pwma", "TI_INDICATOR_PWMA_INDEX");
    (* rema.cc:82 *) ("rema", "TI_INDICATOR_REMA_INDEX");
    (* rmf.cc:99 *) ("rmf", "TI_INDICATOR_RMF_INDEX");
    (* rmi.cc:114 *) ("rmi", "TI_INDICATOR_RMI_INDEX");
    (* roof.cc:81 *) ("roof", "TI_INDICATOR_ROOF_INDEX");
    (* rvi.cc:98 *) ("rvi", "TI_INDICATOR_RVI_INDEX");
    (* shmma.cc:99 *) ("shmma", "TI_INDICATOR_SHMMA_INDEX");
    (* sma.cc:72 *) ("sma", "TI_INDICATOR_SMA_INDEX");
    (* smi.cc:203 *) ("smi", "TI_INDICATOR_SMI_INDEX");
    (* ssmooth.cc:72 *) ("ssmooth", "TI_INDICATOR_SSMOOTH_INDEX");
    (* swma.cc:110 *) ("swma", "TI_INDICATOR_SWMA_INDEX");
    (* t3.cc:154 *) ("t3", "TI_INDICATOR_T3_INDEX");
    (* tsi.cc:118 *) ("tsi", "TI_INDICATOR_TSI_INDEX");
    (* vi.cc:134 *) ("vi", "TI_INDICATOR_VI_INDEX");
    (* vwap.cc:119 *) ("vwap", "TI_INDICATOR_VWAP_INDEX") ].
