{
 "MFilter.fo_to_string|dec_string (N.of_nat (fo_size f)) ++ str \" \"\n    ++ dec_string (N.of_nat (fo_offset f))": {
  "tightened": [
   "C73_filter_text"
  ],
  "remark": "no theorem spoke about ToString; property C73 was added and its theorem C73_filter_text fails on this edit"
 },
 "MEngine.common_loop|  | _ :: _, [] => []\n": {
  "remark": "equivalent program: the minimum is never a proper extension of the maximum, so the case is never reached"
 },
 "MTools.file_of|[u_scheme p; u_cp p]": {
  "tightened": [
   "C90_path",
   "C90_own_file"
  ],
  "remark": "no theorem said where the files are; property C90 was added"
 },
 "MTools.file_of|[u_scheme p; u_at p; u_cp p]": {
  "tightened": [
   "C90_path"
  ],
  "remark": "no theorem said where the files are; property C90 was added"
 },
 "MTools.num_serial|Definition num_serial : nat := 99.": {
  "tightened": [
   "C72_run_partial",
   "C87_files_partial"
  ],
  "remark": "the specification of a set (set_ok) used the model's own constant; it now says 100"
 },
 "MGob.map_load|| (k, DBin p _) :: l' => map_load l' (mset k p acc)": {
  "tightened": [
   "C58_damaged_entry"
  ],
  "remark": "no theorem spoke about damaged entries; C58_damaged_entry was added and fails on this edit"
 },
 "MSystem.build_engine|Some t => Ok (EngPatricia t) | None => Ok (EngPatricia PNil)": {
  "remark": "equivalent program: the fuel given is always enough (PPatricia.v: new_patricia_b gives Some for every map), so the case is never reached"
 },
 "MWord.shown|Ok []": {
  "remark": "equivalent program: the case is never reached"
 },
 "MSelect.priority_of|Some e => priority e | None => 3": {
  "remark": "equivalent program: the case is never reached, because only selected engines are compared"
 },
 "MDataset.mismatch_repeat|(f64 pct)": {
  "tightened": [
   "C88_rounds_partial"
  ],
  "remark": "the theorem spoke about the rounds with filters only; it now gives both numbers of rounds and fails on this edit"
 },
 "MDataset.mismatch_repeat|(f64 31)": {
  "tightened": [
   "C88_rounds_partial"
  ],
  "remark": "the theorem spoke about the rounds with filters only; it now gives both numbers of rounds and fails on this edit"
 },
 "MDump.hex_digit|86 + n": {
  "remark": "the claim that is proved (the dump determines the content) is still true of the edited program: the digits are different characters but still distinct"
 },
 "MGob.of_stree|GNode u f (of_stree n) (of_stree m)": {
  "tightened": [
   "C23_read"
  ],
  "remark": "the theorem did not say in which of the two places each branch is read; it now does and fails on this edit"
 },
 "MMain.keepalive|1062": {
  "tightened": [
   "C55_framing",
   "C68_replies_partial"
  ],
  "remark": "the headers of the specification were those of the model; they are now written out in SpecMain.v"
 },
 "MScheme.s_sgtin96_table|(9, s_row 3 30 14 5)": {
  "remark": "equivalent program: package scheme never reads this column of the table"
 },
 "MScheme.make_giai96|let fv := fv in": {
  "tightened": [
   "C46_empty_filter_partial"
  ],
  "remark": "nothing was said about empty filter values; the theorem was added"
 },
 "MTdtCore.sgtin_cp_40|(shl8 (N.land (b id 5) 3) 6) (N.shiftr (b id 7) 2)": {
  "remark": "the proof about this byte extraction does not go through (it was stopped after ten minutes), so the theorems that rest on it were not reached"
 },
 "MStat.throughput|(Z.of_N (th_time t)) (Z.of_N (th_events t))": {
  "tightened": [
   "C50_tick_exact",
   "C66_exactly_partial"
  ],
  "remark": "the throughput has since become the floating point number MFactory.th_value; the same edit there makes these theorems fail (see below)"
 }
}