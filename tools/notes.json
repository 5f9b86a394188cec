{
 "C01": {"note": "Exact domain as an iff over all int64/uint64 field values; the world tile is the refutation witness."},
 "C04": {"note": "Exact domain as an iff; a '_' inside a number is treated as a syntax error by the ParseInt model."}
}
