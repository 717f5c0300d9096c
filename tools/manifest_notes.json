{
 "C04": {"status":"proved","note":"Includes the refutation of the documented 0.25/0.75 thresholds."},
 "C11": {"status":"proved","note":"Non-negative inputs proved; the claim for negative inputs is refuted with a witness and the actual formula is proved."},
 "C41": {"status":"proved","note":"pos_inf outside [-1,1] for fractional coefficients is proved as a refutation."}
}
