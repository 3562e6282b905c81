{
"C03": {"note": "the naive reading (a call returns what it produced) is refuted by C03_fresh_output_refuted"},
"C04": {"note": "documents without datafile/datadict/config_dict; numbers are exact rationals (rounding of float() not modelled)"},
"C05": {"note": "equal values collapse: C05_equal_values_are_kept_refuted"}
}
